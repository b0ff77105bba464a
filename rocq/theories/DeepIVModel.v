(** Model of ylearn/estimator_model/deepiv.py (class DeepIV with its wrappers MDNWrapper and NetWrapper), of the data sets of
    ylearn/estimator_model/_nn.py and of DeepIVWrapper._f64to32 of ylearn/estimator_model/_factory.py.
    Numbers are rationals.  The networks are parameters of the model: initial weights, training on a list of examples, the
    row-wise forward pass, the random draws of a mixture.  A call needs data and weights on the same device. *)
From Coq Require Import ZArith QArith Qround String.
From Verif Require Import Base.
Unset Implicit Arguments.
Local Notation length := List.length.
Local Open Scope string_scope.
Local Open Scope list_scope.
Local Open Scope nat_scope.

(** the exceptions met here: those of Base, RuntimeError of torch, raise Exception(...), UnboundLocalError *)
Inductive dexn := Py (e : exn) | RuntimeErr | PlainExc | UnboundLocal.
Inductive dres (A : Type) := DOk (a : A) | DErr (e : dexn).
Arguments DOk {A} a.
Arguments DErr {A} e.
Definition dbind {A B} (r : dres A) (f : A -> dres B) : dres B := match r with DOk a => f a | DErr e => DErr e end.
Notation "'dd' x <- r ; k" := (dbind r (fun x => k)) (at level 200, x pattern, r at level 100, k at level 200).
Fixpoint dmapM {A B} (f : A -> dres B) (l : list A) : dres (list B) :=
  match l with [] => DOk [] | a :: r => dd b <- f a; dd bs <- dmapM f r; DOk (b :: bs) end.

Definition row := list Q.
Definition matrix := list row.
(** a DataFrame: number of rows, columns by name *)
Record frame := mkF { f_n : nat; f_cols : list (string * list Q) }.
Fixpoint col (c : string) (l : list (string * list Q)) : option (list Q) :=
  match l with [] => None | (d, v) :: r => if String.eqb c d then Some v else col c r end.

(** utils.py:179-188 _get_array for a list of names; the names None give None *)
Definition get_array (d : frame) (names : option (list string)) : dres (option matrix) :=
  match names with
  | None => DOk None
  | Some l => dd cs <- dmapM (fun c => match col c (f_cols d) with Some v => DOk v | None => DErr (Py KeyError) end) l;
              DOk (Some (map (fun i => map (fun c => nth i c 0%Q) cs) (seq 0 (f_n d))))
  end.
(** .shape[1] of a matrix read from the columns l *)
Definition width (m : matrix) (dflt : nat) : nat := match m with [] => dflt | r :: _ => length r end.

(** torch.argmax of a row: the first maximal entry *)
Fixpoint argmax_from (best : nat) (bv : Q) (i : nat) (l : row) : nat :=
  match l with [] => best | v :: r => if Qlt_le_dec bv v then argmax_from i v (S i) r else argmax_from best bv (S i) r end.
Definition argmax (l : row) : nat := match l with [] => 0 | v :: r => argmax_from 0 v 1 r end.

(** one entry of a batch: a vector or an integer label *)
Inductive inp := Vec (r : row) | Lab (k : nat).
Inductive device := CPU | CUDA.

Section Nets.
(** weights of a network, and the options lr, epoch, optimizer, ... of a call of fit *)
Context {P Cfg : Type}.

(** a network given by the user *)
Record unet := mkUN { un_par : P; un_din : bool; un_dout : bool }.
(** hidden_d of the constructor: absent, an int (as documented), a list *)
Inductive hid := HNone | HInt (k : nat) | HList (l : list nat).
Record cfg := mkC { c_dev : device; c_opt : Cfg }.
Definition example : Type := (inp * row * inp)%type.

(** what torch and sklearn do *)
Record kit := mkK {
  k_cuda : bool;                                            (** torch.cuda.is_available() *)
  k_cat : matrix -> matrix;                                 (** OneHotEncoder().fit(x).transform(x).toarray() *)
  k_net : nat -> nat -> nat -> list nat -> bool -> bool -> P; (** Net(x_d, w_d, out_d, hidden, discrete input, discrete output) *)
  k_mdn : nat -> nat -> nat -> list nat -> nat -> bool -> P;  (** MixtureDensityNetwork(z_d, w_d, out_d, hidden, num_gaussian, discrete input) *)
  k_train : Cfg -> bool -> P -> list example -> P;          (** the training loops; true: the loop over all labels *)
  k_fwd : P -> inp -> row -> row;                           (** Net.forward on one row *)
  k_soft : row -> row;                                      (** nn.Softmax on one row *)
  k_draw : P -> nat -> nat -> inp -> row -> row             (** draw number j of the mixture of row i *)
}.
Variable K : kit.

(** MDNWrapper (w_mdn = true) or NetWrapper *)
Record wrapper := mkW { w_mdn : bool; w_par : P; w_dev : device; w_yn : bool; w_din : bool; w_dout : bool }.

(** the constructor arguments of DeepIV that matter here *)
Record spec := mkS { s_xnet : option unet; s_ynet : option unet; s_xh : hid; s_yh : hid; s_ng : option nat;
                     s_dt : bool; s_do : bool; s_dz : bool }.
(** the attributes: w, adjustment, the dimensions (_y_d, _x_d, _w_d, _z_d), x_net, y_net, _is_fitted *)
Record div := mkD { d_w : option matrix; d_adj : option (list string); d_dims : option (nat * nat * nat * nat);
                    d_x : option wrapper; d_y : option wrapper; d_fit : bool }.
(** deepiv.py:641-667 __init__ *)
Definition div_new : div := mkD None None None None None false.

(** embed + cat of Net.forward 346-361 / MixtureDensityNetwork.forward 92-130: an embedding wants labels, an Identity vectors *)
Definition fwd_ok (din : bool) (x : inp) : bool := match x with Lab _ => din | Vec _ => negb din end.
(** the call self.model(x, w) on data of the cpu, row by row: weights on the other device, or one-hot vectors for an
    embedding, are a RuntimeError *)
Definition run {A} (n : wrapper) (f : nat -> inp -> row -> A) (x : list inp) (w : matrix) : dres (list A) :=
  match w_dev n with
  | CUDA => DErr RuntimeErr
  | CPU => if negb (Nat.eqb (length x) (length w)) then DErr RuntimeErr else
           dmapM (fun ixw => let '(i, (a, b)) := ixw in
                             if fwd_ok (w_din n) a then DOk (f i a b) else DErr RuntimeErr)
                 (combine (seq 0 (length x)) (combine x w))
  end.

(** what self.predict and self.predict_proba do to x: argmax if the input is discrete *)
Definition labels (n : wrapper) (x : matrix) : list inp := map (fun r => if w_din n then Lab (argmax r) else Vec r) x.
(** deepiv.py:487-494 NetWrapper.predict_proba *)
Definition predict_proba (n : wrapper) (x w : matrix) : dres matrix :=
  if negb (w_dout n) then DErr (Py AssertionError) else
  run n (fun _ a b => k_soft K (k_fwd K (w_par n) a b)) (labels n x) w.
(** deepiv.py:496-504 NetWrapper.predict: rows of numbers, or labels *)
Inductive preds := PRows (m : matrix) | PLabs (l : list nat).
Definition predict (n : wrapper) (x w : matrix) : dres preds :=
  if w_dout n
  then dd l <- run n (fun _ a b => argmax (k_soft K (k_fwd K (w_par n) a b))) (labels n x) w; DOk (PLabs l)
  else dd m <- run n (fun _ a b => k_fwd K (w_par n) a b) (labels n x) w; DOk (PRows m).

(** deepiv.py:303-325 MDNWrapper._sample: no argmax here; all draws of number 0 first, then number 1, ...;
    deepiv.py:506-507 NetWrapper._sample *)
Definition sample (n : wrapper) (z w : matrix) (k : option nat) : dres matrix :=
  if w_mdn n then
    dd _ <- run n (fun _ _ _ => tt) (map Vec z) w;
    match k with
    | None => DErr (Py TypeError)
    | Some m => dd ds <- dmapM (fun j => run n (fun i a b => k_draw K (w_par n) j i a b) (map Vec z) w) (seq 0 m);
                DOk (List.concat ds)
    end
  else predict_proba n z w.

(** _nn.py:13-103 the data sets: which of X and y become labels, then the items 0..len(target)-1 *)
Definition to_lab (b : bool) (m : matrix) : list inp := map (fun r => if b then Lab (argmax r) else Vec r) m.
Fixpoint items (x : list inp) (w : matrix) (y : list inp) {struct y} : dres (list example) :=
  match y with
  | [] => DOk []
  | t :: y' => match x, w with
               | a :: x', b :: w' => dd r <- items x' w' y'; DOk ((a, b, t) :: r)
               | _, _ => DErr (Py IndexError)
               end
  end.
(** deepiv.py:413-481 NetWrapper.fit and 200-266 MDNWrapper.fit; at least one epoch; the network after the call and the outcome.
    A failing move to the device leaves the weights alone, a failing item is the first one *)
Definition wfit (n : wrapper) (c : option cfg) (x : matrix) (w : option matrix) (y : matrix) : wrapper * dres unit :=
  match c with
  | None => (n, DErr (Py TypeError))
  | Some c =>
    match c_dev c, k_cuda K with
    | CUDA, false => (n, DErr RuntimeErr)
    | _, _ =>
      let n1 := mkW (w_mdn n) (w_par n) (c_dev c) (w_yn n) (w_din n) (w_dout n) in
      let w := match w with Some w => w | None => map (fun _ => []) x end in
      let lx := w_din n && (w_mdn n || negb (w_yn n)) in
      let ly := negb (w_mdn n) && w_dout n in
      match items (to_lab lx x) w (to_lab ly y) with
      | DErr e => (n1, DErr e)
      | DOk ex => (mkW (w_mdn n) (k_train K (c_opt c) (w_din n && w_yn n) (w_par n) ex) (c_dev c) (w_yn n) (w_din n) (w_dout n), DOk tt)
      end
    end
  end.

(** the loop for i, hidden_d in enumerate(hidden_d_list, 1) of 935-937 and 955-957 *)
Definition hidden_list (h : hid) : dres (list nat) :=
  match h with HNone => DOk [64; 128; 64] | HInt _ => DErr (Py TypeError) | HList l => DOk l end.
(** deepiv.py:934-952 _gen_x_model.  Net and MixtureDensityNetwork know hidden_d1..hidden_d3 only; num_gaussian given by
    __init__ 643-645 for a continuous treatment only, 5 inside MixtureDensityNetwork otherwise *)
Definition gen_x (s : spec) (zd wd xd : nat) : dres wrapper :=
  dd h <- hidden_list (s_xh s);
  match s_xnet s with
  | Some u => DOk (mkW (negb (s_dt s)) (un_par u) CPU false (un_din u) (un_dout u))
  | None =>
    if negb (negb (zd =? 0) || negb (wd =? 0) || negb (xd =? 0)) then DErr (Py AssertionError) else
    if 3 <? length h then DErr (Py TypeError) else
    DOk (mkW (negb (s_dt s))
             (if s_dt s then k_net K zd wd xd h (s_dz s) true
              else k_mdn K zd wd xd h (match s_ng s with Some g => g | None => 5 end) (s_dz s))
             CPU false (s_dz s) (s_dt s))
  end.
(** deepiv.py:954-963 _gen_y_model: y_net is a local variable that only the branch y_model is None binds *)
Definition gen_y (s : spec) (xd wd yd : nat) : dres wrapper :=
  dd h <- hidden_list (s_yh s);
  match s_ynet s with
  | Some _ => DErr UnboundLocal
  | None =>
    if negb (negb (xd =? 0) || negb (wd =? 0) || negb (yd =? 0)) then DErr (Py AssertionError) else
    if 3 <? length h then DErr (Py TypeError) else
    DOk (mkW false (k_net K xd wd yd h (s_dt s) (s_do s)) CPU true (s_dt s) (s_do s))
  end.

(** one call of fit; the name lists of outcome and treatment are required arguments *)
Record fargs := mkA { a_data : frame; a_out : list string; a_treat : list string; a_inst : option (list string);
                      a_adj : option (list string); a_approx : bool; a_n : option nat;
                      a_xc : option cfg; a_yc : option cfg; a_kw : cfg }.
(** w.repeat(sample_n, 1) *)
Definition repeat_rows (w : matrix) (k : nat) : matrix := List.concat (repeat w k).

(** deepiv.py:669-793 fit: attributes are assigned as the call goes, so the state after a failure is part of the outcome *)
Definition fit (s : spec) (a : fargs) (o : div) : div * dres unit :=
  match a_inst a with
  | None => (o, DErr (Py AssertionError))
  | Some inst =>
    (* base_models.py:42-79: setattr of adjustment; _is_fitted stays; a discrete treatment is looked up in the frame there *)
    let o1 := mkD (d_w o) (a_adj a) (d_dims o) (d_x o) (d_y o) (d_fit o) in
    let xc := match a_xc a, a_yc a with None, None => Some (a_kw a) | c, _ => c end in
    let yc := match a_xc a, a_yc a with None, None => Some (a_kw a) | _, c => c end in
    match (dd y <- get_array (a_data a) (Some (a_out a)); dd x <- get_array (a_data a) (Some (a_treat a));
           dd z <- get_array (a_data a) (Some inst); dd w <- get_array (a_data a) (a_adj a); DOk (y, x, z, w)) with
    | DErr e => (o1, DErr e)
    | DOk (y, x, z, w) =>
      let enc (b : bool) (m : option matrix) := let m := match m with Some m => m | None => [] end in if b then k_cat K m else m in
      let x := enc (s_dt s) x in let z := enc (s_dz s) z in let y := enc (s_do s) y in
      let o2 := mkD w (a_adj a) (d_dims o) (d_x o) (d_y o) (d_fit o) in
      (* shapes of utils.py:115-126 drops None, so four names are unpacked from three values *)
      match w with
      | None => (o2, DErr (Py ValueError))
      | Some wm =>
        let yd := width y (length (a_out a)) in let xd := width x (length (a_treat a)) in
        let wd := width wm (match a_adj a with Some l => length l | None => 0 end) in let zd := width z (length inst) in
        let o3 := mkD w (a_adj a) (Some (yd, xd, wd, zd)) (d_x o) (d_y o) (d_fit o) in
        match gen_x s zd wd xd with
        | DErr e => (o3, DErr e)
        | DOk xn =>
          let o4 := mkD w (a_adj a) (Some (yd, xd, wd, zd)) (Some xn) (d_y o) (d_fit o) in
          match gen_y s xd wd yd with
          | DErr e => (o4, DErr e)
          | DOk yn =>
            let st xn yn b := mkD w (a_adj a) (Some (yd, xd, wd, zd)) (Some xn) (Some yn) b in
            let (xn, r) := wfit xn xc z w x in
            match r with
            | DErr e => (st xn yn (d_fit o), DErr e)
            | DOk _ =>
              match (dd xs <- (if a_approx a then sample xn z wm (a_n a) else DOk x);
                     dd ws <- (if s_dt s then DOk wm else
                               match a_n a with None => DErr (Py TypeError) | Some k => DOk (repeat_rows wm k) end);
                     DOk (xs, ws)) with
              | DErr e => (st xn yn (d_fit o), DErr e)
              | DOk (xs, ws) =>
                let (yn, r) := wfit yn yc xs (Some ws) y in
                match r with DErr e => (st xn yn (d_fit o), DErr e) | DOk _ => (st xn yn true, DOk tt) end
              end
            end
          end
        end
      end
    end
  end.

(** row i of torch.eye(n, d) * c for a number c *)
Definition eye_row (d : nat) (c : Q) (i : nat) : row := map (fun j => if Nat.eqb i j then c else 0%Q) (seq 0 d).
(** int(): towards zero *)
Definition trunc (q : Q) : Z := if Qlt_le_dec q 0 then Qceiling q else Qfloor q.
(** ones.index_select(dim=0, index=...) with the same index n times *)
Definition select (n d : nat) (k : Z) : dres matrix :=
  if (n =? 0)%nat then DOk [] else
  if ((k <? 0)%Z || (Z.of_nat n <=? k)%Z)%bool then DErr (Py IndexError) else DOk (repeat (eye_row d 1%Q (Z.to_nat k)) n).

(** the adjustment rows of 813-819 and 799-804 *)
Definition get_w (o : div) (data : option frame) : dres matrix :=
  dd w <- match data with None => DOk (d_w o) | Some d => get_array d (d_adj o) end;
  match w with None => DErr (Py AttributeError) | Some w => DOk w end.

(** deepiv.py:831-875 _prepare4est *)
Definition prepare (s : spec) (o : div) (data : option frame) (treat control : option Q) (marg : bool) : dres (preds * preds) :=
  match d_x o, d_y o, d_dims o with
  | Some _, Some yn, Some (yd, xd, wd, zd) =>
    let t := match treat with Some t => t | None => 1%Q end in
    let c := match control with Some c => c | None => 0%Q end in
    dd w <- get_w o data;
    let n := length w in
    if s_dt s then
      dd xt <- select n xd (trunc t);
      dd x0 <- select n xd 0;
      dd yt <- predict yn xt w;
      dd y0 <- predict yn x0 w; DOk (yt, y0)
    else
      dd yt <- predict yn (map (eye_row xd t) (seq 0 n)) w;
      (* xt.grad is None: no backward was run *)
      if marg then DErr (Py AttributeError) else
      dd y0 <- predict yn (map (eye_row xd c) (seq 0 n)) w; DOk (yt, y0)
  | _, _, _ => DErr PlainExc
  end.

(** the answer of estimate: a row of means (NaN for no rows), the rows, or labels *)
Inductive answer := AMean (r : row) | ANan | ARows (m : matrix) | ALabs (l : list nat).
Definition qsum (l : list Q) : Q := fold_right Qplus 0%Q l.
(** entry j of mean(dim=0) over the rows f 0 .. f (n-1) *)
Definition col_mean (n : nat) (f : nat -> Q) : Q := (qsum (map f (seq 0 n)) / inject_Z (Z.of_nat n))%Q.
(** the mean over dim 0; of integers it is a RuntimeError *)
Definition mean0 (yd : nat) (m : matrix) : answer :=
  match m with [] => ANan
  | _ => AMean (map (fun j => col_mean (length m) (fun i => nth j (nth i m []) 0%Q)) (seq 0 yd)) end.
(** deepiv.py:877-932 estimate *)
Definition estimate (s : spec) (o : div) (data : option frame) (treat control : option Q) (quantity : option string) (marg : bool) : dres answer :=
  dd p <- prepare s o data treat control marg;
  let '(yt, y0) := p in
  let yd := match d_dims o with Some (yd, _, _, _) => yd | None => 0 end in
  let mean_wanted := match quantity with Some q => String.eqb q "CATE" || String.eqb q "ATE" | None => false end in
  if mean_wanted then
    match yt, y0 with
    | PRows a, PRows b =>
        DOk (mean0 yd (if marg then a else map (fun ab => map (fun j => (nth j (fst ab) 0 - nth j (snd ab) 0)%Q) (seq 0 yd)) (combine a b)))
    | _, _ => DErr RuntimeErr
    end
  else match yt with PRows a => DOk (ARows a) | PLabs l => DOk (ALabs l) end.

(** deepiv.py:795-829 effect_nji: torch.full needs a fill value *)
Definition effect_nji (o : div) (data : option frame) : dres unit :=
  match d_x o, d_y o with
  | Some _, Some _ => dd _ <- get_w o data; DErr (Py TypeError)
  | _, _ => DErr PlainExc
  end.
End Nets.
Arguments mkUN {P}. Arguments mkC {Cfg}. Arguments mkK {P Cfg}. Arguments mkW {P}. Arguments mkS {P}. Arguments mkD {P}. Arguments mkA {Cfg}.
Arguments unet : clear implicits. Arguments cfg : clear implicits. Arguments kit : clear implicits. Arguments wrapper : clear implicits.
Arguments spec : clear implicits. Arguments div : clear implicits. Arguments fargs : clear implicits. Arguments div_new {P}.

(** _factory.py:334-341 DeepIVWrapper._f64to32.  A column has a name, a dtype and values; rnd = astype('float32') *)
Inductive dtype := F64 | F32 | Other.
Record column (V : Type) := mkCol { cl_name : string; cl_t : dtype; cl_v : list V }.
Arguments mkCol {V}. Arguments cl_name {V}. Arguments cl_t {V}. Arguments cl_v {V}.
Definition is64 {V} (c : column V) : bool := match cl_t c with F64 => true | _ => false end.
(** data[data.columns] = frame: pandas wants as many columns as keys, and assigns by position *)
Definition f64to32 {V} (rnd : V -> V) (d : list (column V)) : res (list (column V)) :=
  let sel := filter is64 d in
  if 0 <? length sel then
    if length sel =? length d
    then Ok (map (fun kc => mkCol (fst kc) F32 (map rnd (cl_v (snd kc)))) (combine (map cl_name d) sel))
    else Err ValueError
  else Ok d.
