(** Model of ylearn/causal_discovery/_dydiscovery.py: layout of the data, the model's predictions, the control flow of the training loops and the
    post-processing.  The optimisers are parameters; the gradient, the penalties and alpha only enter them.  Samples are exact reals, the learned
    weights integers in a fixed unit as in DiscoveryModel. *)
From Coq Require Import ZArith Reals String List Bool.
From Verif Require Import Base NxModel DiscoveryModel GenModel.
Unset Implicit Arguments.
Local Notation length := List.length.
Local Open Scope list_scope.
Local Open Scope nat_scope.

Definition row := nat -> R.
(** _dydiscovery.py:119 (and 269) data.reshape(int(step + order), int(data.shape[0] / (step + order)), data.shape[1]), C order *)
Definition reshape_blocks (data : list row) (step order : nat) : res (list rmat) :=
  if Nat.eqb (step + order) 0 then Err ZeroDivisionError else
  let n := length data / (step + order) in
  if Nat.eqb ((step + order) * n) (length data) then Ok (map (fun t i => nth (t * n + i) data (fun _ => 0%R)) (seq 0 (step + order))) else Err ValueError.
Definition block (X : list rmat) (t : nat) : rmat := nth t X (fun _ _ => 0%R).
(** _dydiscovery.py:26-30 Dynotears.forward: Xlags[k:] @ w plus, for every k, Xlags[:-self.k] @ p[:, :, k] *)
Fixpoint lag_terms (d : nat) (P : nat -> rmat) (Xt : rmat) (i j : nat) (ks : list nat) (m : R) : R :=
  match ks with [] => m | k :: ks => lag_terms d P Xt i j ks (m + sumR (seq 0 d) (fun p => Xt i p * P k p j))%R end.
Definition forward (d order : nat) (X : list rmat) (W : rmat) (P : nat -> rmat) : list rmat :=
  map (fun t i j => lag_terms d P (block X t) i j (seq 0 order) (sumR (seq 0 d) (fun p => block X (t + order) i p * W p j)%R)) (seq 0 (length X - order)).
(** _dydiscovery.py:66-70 _squared_loss; n rows per block *)
Definition squared_loss (n d : nat) (output target : list rmat) : res R :=
  if Nat.eqb (length target) 0 then Err ZeroDivisionError else
  Ok (1 / 2 / INR (length target) * sumR (seq 0 (length target)) (fun t => sumR (seq 0 n) (fun i => sumR (seq 0 d) (fun j =>
       (block output t i j - block target t i j) * (block output t i j - block target t i j)))))%R.
(** _dydiscovery.py:77-78: the data term of the objective *)
Definition data_loss (n d order : nat) (X : list rmat) (W : rmat) (P : nat -> rmat) : res R := squared_loss n d (forward d order X W P) (skipn order X).

(** values of h: finite, infinite or NaN; comparisons with NaN are false *)
Inductive hval := HFin (r : R) | HInf | HNan.
(** h_new.item() > 0.25 * h *)
Definition too_slow (hnew h : hval) : bool :=
  match hnew, h with
  | HFin a, HFin b => if Rlt_dec (1 / 4 * b) a then true else false
  | HInf, HFin _ => true
  | _, _ => false
  end.
Definition le_tol (h : hval) (tol : R) : bool := match h with HFin a => if Rle_dec a tol then true else false | _ => false end.
Section Train.
  Variables (rho_max h_tol : R).
  (** h after the s-th optimizer step; whether the weights are NaN after it *)
  Variable hs : nat -> hval.
  Variable nan : nat -> bool.
  (** _dydiscovery.py:72-97 _rho_h_update from step s on: rho, h_new, number of steps *)
  Fixpoint rho_loop (fuel : nat) (rho : R) (h : hval) (hnew : option hval) (s : nat) : res (R * hval * nat) :=
    match fuel with
    | 0 => Err OutOfFuel
    | S fuel =>
      if Rlt_dec rho rho_max then
        if too_slow (hs s) h then rho_loop fuel (rho * 10)%R h (Some (hs s)) (s + 1) else Ok (rho, hs s, s + 1)
      else match hnew with Some x => Ok (rho, x, s) | None => Err TypeError end (* alpha += rho * None *)
    end.
  (** _dydiscovery.py:129-140, the loop over the epochs *)
  Fixpoint epochs (fuel n : nat) (rho : R) (h : hval) (s : nat) : res (R * hval * nat) :=
    match n with
    | 0 => Ok (rho, h, s)
    | S n =>
      do r <- rho_loop fuel rho h None s;
      let '(rho, h, s) := r in
      if le_tol h h_tol || (if Rle_dec rho_max rho then true else false) || nan s then Ok (rho, h, s) else epochs fuel n rho h s
    end.
  Definition train (fuel epoch : nat) : res (R * hval * nat) := epochs fuel epoch 1 HInf 0.
End Train.

(** _dydiscovery.py:141-157 (and 288-304), from the learned weights on.  one: the integer that stands for 1.0; tenths: the cut of the lag
    coefficients in tenths, 1 in DyCausalDiscovery, 3 in DygolemCausalDiscovery.  The DataFrame of the columns and the dictionary are built
    and dropped *)
Definition cut_lags (one tenths : Z) (P : nat -> matrix) : nat -> matrix := fun k i j => if Z.ltb (10 * Z.abs (P k i j)) (tenths * one) then 0%Z else P k i j.
Definition dy_result (ord : list (list nat) -> list (list nat)) (one tenths : Z) (n : nat) (columns : option (list string)) (return_dict : bool) (th : option Z)
  (W : matrix) (P : nat -> matrix) : res (matrix * (nat -> matrix)) :=
  let P := match th with Some _ => cut_lags one tenths P | None => P end in
  do w <- discovered ord n th W;
  do _ <- (if return_dict then matrix2dict n w (seq 0 n) None else Ok []);
  Ok (w, P).
