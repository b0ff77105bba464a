(** Model of ylearn/sklearn_ex/cloned/tree/_utils.pyx: WeightedPQueue and WeightedMedianCalculator.
    Doubles are exact reals.  The C array is the list of its live records (positions < array_ptr) and its
    capacity; an access outside is an error value (the Cython code is compiled without bounds checks, so there
    it is undefined behaviour).  Memory allocation does not fail. *)
From Coq Require Import Reals Lra.
From Verif Require Import Base.
Set Implicit Arguments.
Local Notation length := List.length.
Open Scope R_scope.

(** a WeightedPQueueRecord (data, weight) *)
Notation record := (R * R)%type.
Definition rec0 : record := (0, 0).

(** _utils.pyx:84-113 the fields capacity and array_[0:array_ptr] *)
Record pq := mkPq { capacity : nat; arr : list record }.

(** _utils.pyx:103-106 __cinit__ *)
Definition pq_new (cap : nat) : pq := mkPq cap [].

(** _utils.pyx:111-120 reset *)
Definition pq_reset (q : pq) : pq := mkPq (capacity q) [].

(** array[i] = v *)
Fixpoint upd (l : list record) (i : nat) (v : record) : list record :=
  match l, i with
  | [], _ => []
  | _ :: r, O => v :: r
  | x :: r, S j => x :: upd r j v
  end.

(** _utils.pyx:149-154: while(i != 0 and array[i].data < array[i-1].data): swap; i -= 1 *)
Fixpoint bubble (i : nat) (l : list record) : list record :=
  match i with
  | O => l
  | S j => if Rlt_dec (fst (nth i l rec0)) (fst (nth j l rec0))
           then bubble j (upd (upd l i (nth j l rec0)) j (nth i l rec0))
           else l
  end.

(** _utils.pyx:128-158 push.  Writing at array_ptr >= capacity (after the doubling) is out of bounds. *)
Definition pq_push (q : pq) (r : record) : res pq :=
  let n := length (arr q) in
  let cap := if (capacity q <=? n)%nat then (capacity q * 2)%nat else capacity q in
  if (n <? cap)%nat then Ok (mkPq cap (bubble n (arr q ++ [r]))) else Err IndexError.

(** array[i].data == data and array[i].weight == weight *)
Definition rec_eq (a b : record) : bool :=
  if Req_EM_T (fst a) (fst b) then if Req_EM_T (snd a) (snd b) then true else false else false.

(** _utils.pyx:171-175: the first matching index *)
Fixpoint find_idx (r : record) (l : list record) : option nat :=
  match l with
  | [] => None
  | x :: t => if rec_eq x r then Some 0%nat else option_map S (find_idx r t)
  end.

(** _utils.pyx:180-186: for i in range(idx, array_ptr-1): array[i] = array[i+1]; then array_ptr - 1 *)
Definition shift_out (idx : nat) (l : list record) : list record :=
  firstn (length l - 1)
         (fold_left (fun a i => upd a i (nth (S i) a rec0)) (seq idx (length l - 1 - idx)) l).

(** _utils.pyx:160-186 remove: the queue and the return value *)
Definition pq_remove (q : pq) (r : record) : pq * Z :=
  match arr q with
  | [] => (q, -1)%Z
  | _ => match find_idx r (arr q) with
         | None => (q, -1)%Z
         | Some i => (mkPq (capacity q) (shift_out i (arr q)), 0)%Z
         end
  end.

(** _utils.pyx:188-207 pop: the queue and the record written through the pointers (None: returns -1) *)
Definition pq_pop (q : pq) : pq * option record :=
  match arr q with
  | [] => (q, None)
  | r :: _ => (mkPq (capacity q) (shift_out 0 (arr q)), Some r)
  end.

(** _utils.pyx:209-218 peek *)
Definition pq_peek (q : pq) : option record :=
  match arr q with [] => None | r :: _ => Some r end.

(** histories *)
Inductive pq_op := PPush (r : record) | PPop | PRemove (r : record) | PReset.
Inductive pq_out := ORet (z : Z) | OPop (r : option record).

Definition pq_step (q : pq) (o : pq_op) : res (pq * pq_out) :=
  match o with
  | PPush r => do q' <- pq_push q r ; Ok (q', ORet 0)
  | PPop => let '(q', r) := pq_pop q in Ok (q', OPop r)
  | PRemove r => let '(q', z) := pq_remove q r in Ok (q', ORet z)
  | PReset => Ok (pq_reset q, ORet 0)
  end.

Fixpoint pq_run (q : pq) (ops : list pq_op) : res (pq * list pq_out) :=
  match ops with
  | [] => Ok (q, [])
  | o :: r => do s <- pq_step q o ;
              do t <- pq_run (fst s) r ;
              Ok (fst t, snd s :: snd t)
  end.

(* ------------------------------------------------------------------------------------------------ *)
(** ** WeightedMedianCalculator *)

(** _utils.pyx:274-280 *)
Record mc := mkMc { smp : pq; total : R; kk : nat; sum0k : R }.
Definition mc_new (cap : nat) : mc := mkMc (pq_new cap) 0 0 0.

(** samples.get_weight_from_index(i) / get_value_from_index(i), i < size *)
Definition at_idx (q : pq) (i : nat) : res record :=
  match nth_error (arr q) i with Some r => Ok r | None => Err IndexError end.
(** index k-1 *)
Definition at_pred (q : pq) (k : nat) : res record :=
  match k with O => Err IndexError | S j => at_idx q j end.

(** _utils.pyx:444-453 get_median; a comparison that falls through returns 0 (Cython's default) *)
Definition get_median (m : mc) : res R :=
  if Req_EM_T (sum0k m) (total m / 2) then
    do b <- at_idx (smp m) (kk m) ; do a <- at_pred (smp m) (kk m) ; Ok ((fst b + fst a) / 2)
  else if Rgt_dec (sum0k m) (total m / 2) then
    do a <- at_pred (smp m) (kk m) ; Ok (fst a)
  else Ok 0.

(** _utils.pyx:343-347, 437-441: while(k > 1 and sum - w[k-1] >= total/2): k -= 1; sum -= w[k] *)
Fixpoint dec_loop (q : pq) (tot : R) (k : nat) (s : R) : res (nat * R) :=
  match k with
  | O => Ok (k, s)
  | S k1 =>
      if (k1 =? 0)%nat then Ok (k, s)
      else do r <- at_idx q k1 ;
           if Rge_dec (s - snd r) (tot / 2) then dec_loop q tot k1 (s - snd r) else Ok (k, s)
  end.

(** _utils.pyx:353-356, 428-431: while(k < size and sum < total/2): k += 1; sum += w[k-1].
    [fuel] bounds the number of rounds by the size. *)
Fixpoint inc_loop (fuel : nat) (q : pq) (tot : R) (k : nat) (s : R) : res (nat * R) :=
  match fuel with
  | O => Ok (k, s)
  | S f =>
      if (k <? length (arr q))%nat then
        if Rlt_dec s (tot / 2)
        then do r <- at_idx q k ; inc_loop f q tot (S k) (s + snd r)
        else Ok (k, s)
      else Ok (k, s)
  end.

(** _utils.pyx:317-357 update_median_parameters_post_push, with the queue after the push *)
Definition post_push (m : mc) (q : pq) (r : record) (med : R) : res mc :=
  if (length (arr q) =? 1)%nat then Ok (mkMc q (snd r) 1 (snd r))
  else
    let tot := total m + snd r in
    if Rlt_dec (fst r) med
    then do ks <- dec_loop q tot (S (kk m)) (sum0k m + snd r) ; Ok (mkMc q tot (fst ks) (snd ks))
    else do ks <- inc_loop (length (arr q)) q tot (kk m) (sum0k m) ; Ok (mkMc q tot (fst ks) (snd ks)).

(** the median before the operation (0 when there is no record) *)
Definition orig_median (m : mc) : res R :=
  if (length (arr (smp m)) =? 0)%nat then Ok 0 else get_median m.

(** _utils.pyx:300-315 push *)
Definition mc_push (m : mc) (r : record) : res mc :=
  do med <- orig_median m ;
  do q <- pq_push (smp m) r ;
  post_push m q r med.

(** _utils.pyx:394-442 update_median_parameters_post_remove, with the queue after the removal *)
Definition post_remove (m : mc) (q : pq) (r : record) (med : R) : res mc :=
  if (length (arr q) =? 0)%nat then Ok (mkMc q 0 0 0)
  else
    let tot := total m - snd r in
    if (length (arr q) =? 1)%nat then Ok (mkMc q tot 1 tot)
    else if Rlt_dec (fst r) med
    then match kk m with
         | O => Err IndexError (* k becomes -1 *)
         | S k => do ks <- inc_loop (length (arr q)) q tot k (sum0k m - snd r) ; Ok (mkMc q tot (fst ks) (snd ks))
         end
    else do ks <- dec_loop q tot (kk m) (sum0k m) ; Ok (mkMc q tot (fst ks) (snd ks)).

(** _utils.pyx:359-372 remove: the return value of the queue; the parameters are updated even when the record
    was not found *)
Definition mc_remove (m : mc) (r : record) : res (mc * Z) :=
  do med <- orig_median m ;
  let '(q, z) := pq_remove (smp m) r in
  do m' <- post_remove m q r med ; Ok (m', z).

(** _utils.pyx:374-392 pop *)
Definition mc_pop (m : mc) : res (mc * option record) :=
  do med <- orig_median m ;
  match pq_pop (smp m) with
  | (_, None) => Ok (m, None)
  | (q, Some r) => do m' <- post_remove m q r med ; Ok (m', Some r)
  end.

(** _utils.pyx:286-298 reset *)
Definition mc_reset (m : mc) : mc := mkMc (pq_reset (smp m)) 0 0 0.

Definition mc_step (m : mc) (o : pq_op) : res mc :=
  match o with
  | PPush r => mc_push m r
  | PPop => do s <- mc_pop m ; Ok (fst s)
  | PRemove r => do s <- mc_remove m r ; Ok (fst s)
  | PReset => Ok (mc_reset m)
  end.

Fixpoint mc_run (m : mc) (ops : list pq_op) : res mc :=
  match ops with [] => Ok m | o :: r => do m' <- mc_step m o ; mc_run m' r end.
