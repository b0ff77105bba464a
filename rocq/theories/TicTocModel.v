(** Model of ylearn/utils/_tic_tok.py: the timing decorator and its report.  A function works on a world W (everything its caller can observe) and gives a
    value or an exception; the elapsed time of a call and the log level are given. *)
From Coq Require Import Reals String List Bool.
From Verif Require Import Base.
Unset Implicit Arguments.
Local Notation length := List.length.
Local Open Scope string_scope.
Local Open Scope list_scope.
Local Open Scope nat_scope.

(** the two module dictionaries _stat_call_counter and _stat_second_counter; they always have the same keys *)
Definition stats := list (string * (nat * R)).
Definition stat (s : stats) (k : string) : nat * R := match find (fun e => String.eqb (fst e) k) s with Some e => snd e | None => (0, 0%R) end.
Definition put {V} (s : list (string * V)) (k : string) (v : V) : list (string * V) :=
  if existsb (fun e => String.eqb (fst e) k) s then map (fun e => if String.eqb (fst e) k then (k, v) else e) s else s ++ [(k, v)].
(** _tic_tok.py:75-76 += 1, += elapsed *)
Definition count_call (s : stats) (k : string) (elapsed : R) : stats := put s k (fst (stat s k) + 1, (snd (stat s k) + elapsed)%R).

Section Decorator.
  Context {W Args V : Type}.
  Definition body := Args -> W -> W * res V.
  (** a plain function; the tic_toc_call of a decorated one, with its logger's name *)
  Inductive pyfn := Plain (f : body) | Timed (name : string) (details : bool) (f : body).
  (** _tic_tok.py:14-15 *)
  Definition prefix : string := "[tic-toc]".
  Definition suffix : string := "@".
  (** _tic_tok.py:34-54, 78-80 _tic_toc_decorate; qual: the function's module and qualified name *)
  Definition decorate (log_level current : nat) (name : option string) (details : bool) (qual : string) (fn : pyfn) : pyfn :=
    if Nat.ltb log_level current then fn else
    match fn with
    | Timed _ _ _ => fn (* hasattr(fn, _TIC_TOC_TAG) *)
    | Plain f => Timed (match name with None => (prefix ++ qual ++ suffix)%string | Some n => n end) details f
    end.
  (** no arguments at all; the arguments fit the signature *)
  Variables (no_args binds : Args -> bool).
  (** the effect of formatting the arguments for the log (_format_value iterates over them) *)
  Variable format_args : Args -> W -> W.
  (** calling it; _tic_tok.py:56-76 tic_toc_call: an exception in the finally block replaces the result *)
  Definition call (enabled : bool) (elapsed : R) (fn : pyfn) (a : Args) (s : stats) (w : W) : stats * W * res V :=
    match fn with
    | Plain f => let (w, r) := f a w in (s, w, r)
    | Timed name details f =>
        let (w, r) := f a w in
        if enabled && details && negb (no_args a) then
          if binds a then (count_call s name elapsed, format_args a w, r) else (s, w, Err TypeError)
        else (count_call s name elapsed, w, r)
    end.
End Decorator.
Arguments pyfn : clear implicits.
(** _tic_tok.py:83-131 _format_value of an iterator: at most _COLLECTION_LIMIT = 5 of its elements are taken; the elements left *)
Fixpoint format_iterator {X} (taken : nat) (rest : list X) : list X :=
  match rest with
  | [] => []
  | _ :: rest => if Nat.leb 5 (taken + 1) then rest else format_iterator (taken + 1) rest
  end.
(** _tic_tok.py:160 k[len(prefix):-len(suffix)] *)
Definition short_name (k : string) : string := substring (String.length prefix) (String.length k - String.length suffix - String.length prefix) k.
(** _tic_tok.py:155-163 report *)
Definition report (s : stats) : list (string * (nat * R * R)) :=
  fold_left (fun r e => put r (short_name (fst e)) (fst (snd e), snd (snd e), (snd (snd e) / INR (fst (snd e)))%R)) s [].
