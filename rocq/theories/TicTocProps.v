(** C258, C259: properties of the timing decorator (ylearn/utils/_tic_tok.py). *)
From Coq Require Import Reals String List Bool Lia Lra.
From Verif Require Import Base TicTocModel.
Unset Implicit Arguments.
Local Notation length := List.length.
Local Open Scope string_scope.
Local Open Scope list_scope.
Local Open Scope nat_scope.

Definition get {V} (d : list (string * V)) (k : string) : option V := match find (fun e => String.eqb (fst e) k) d with Some e => Some (snd e) | None => None end.
Lemma get_put : forall {V} (d : list (string * V)) k v k', get (put d k v) k' = if String.eqb k k' then Some v else get d k'.
Proof.
  intros V d k v k'. unfold put. destruct (existsb (fun e => String.eqb (fst e) k) d) eqn:X.
  - assert (G : forall l : list (string * V), get (map (fun e => if String.eqb (fst e) k then (k, v) else e) l) k' =
      if String.eqb k k' then (if existsb (fun e => String.eqb (fst e) k) l then Some v else None) else get l k').
    { induction l as [|[a w] l IH]; [cbn; destruct (String.eqb k k'); reflexivity|]. unfold get in *. cbn [map find fst existsb]. destruct (String.eqb_spec a k) as [->|N]; cbn [fst orb].
      - destruct (String.eqb_spec k k') as [->|N']; [reflexivity|exact IH].
      - destruct (String.eqb_spec a k') as [->|N2]; [|exact IH]. destruct (String.eqb_spec k k') as [->|N']; [congruence|reflexivity]. }
    rewrite G, X. reflexivity.
  - induction d as [|[a w] d IH]; unfold get in *; cbn [app find fst snd]; [destruct (String.eqb k k'); reflexivity|]. cbn [existsb fst] in X. apply orb_false_iff in X as [X1 X2].
    destruct (String.eqb_spec a k') as [->|N].
    + destruct (String.eqb_spec k k') as [->|N']; [rewrite String.eqb_refl in X1; discriminate|reflexivity].
    + apply IH; exact X2.
Qed.
Lemma put_keys : forall {V} (d : list (string * V)) k v x, In x (map fst (put d k v)) <-> x = k \/ In x (map fst d).
Proof.
  intros V d k v x. unfold put. destruct (existsb (fun e => String.eqb (fst e) k) d) eqn:X.
  - replace (map fst (map (fun e => if String.eqb (fst e) k then (k, v) else e) d)) with (map fst d).
    + apply existsb_exists in X as (e & He & Ek). apply String.eqb_eq in Ek. split; [auto|]. intros [->|H]; [|exact H]. rewrite <- Ek. apply in_map. exact He.
    + rewrite map_map. apply map_ext. intros [a w]. cbn. destruct (String.eqb_spec a k); auto.
  - rewrite map_app, in_app_iff. cbn. intuition.
Qed.
Lemma put_nodup : forall {V} (d : list (string * V)) k v, NoDup (map fst d) -> NoDup (map fst (put d k v)).
Proof.
  intros V d k v N. unfold put. destruct (existsb (fun e => String.eqb (fst e) k) d) eqn:X.
  - rewrite map_map. replace (map (fun e => fst (if String.eqb (fst e) k then (k, v) else e)) d) with (map fst d); [exact N|].
    apply map_ext. intros [a w]. cbn. destruct (String.eqb_spec a k); auto.
  - induction d as [|[a w] d IH]; cbn in *; [repeat constructor; auto|]. apply orb_false_iff in X as [X1 X2]. inversion N as [|? ? N1 N2]; subst. constructor; [|now apply IH].
    rewrite map_app, in_app_iff. cbn. intros [C|[C|[]]]; [contradiction|]. subst k. rewrite String.eqb_refl in X1. discriminate.
Qed.

(** ** C258: the decorated function *)
Section C258.
  Context {W Args V : Type}.
  Variables (no_args binds : Args -> bool) (format_args : Args -> W -> W).
  Notation call := (call no_args binds format_args).
  (** decorated twice is decorated once *)
  Theorem C258_once : forall l c n d q l' c' n' d' q' (fn : pyfn W Args V), c <= l ->
    decorate l' c' n' d' q' (decorate l c n d q fn) = decorate l c n d q fn.
  Proof.
    intros l c n d q l' c' n' d' q' fn H. unfold decorate at 2 3. destruct (Nat.ltb_spec l c); [lia|]. destruct fn; unfold decorate; destruct (Nat.ltb l' c'); reflexivity.
  Qed.
  (** below the current level it is not decorated at all *)
  Theorem C258_off : forall l c n d q (fn : pyfn W Args V), l < c -> decorate l c n d q fn = fn.
  Proof. intros l c n d q fn H. unfold decorate. destruct (Nat.ltb_spec l c); [reflexivity|lia]. Qed.
  (** value, exception and effects are those of the function, if the arguments can be formatted without effect.  Arguments that do not fit the signature
      are a TypeError before anything happens *)
  Theorem C258_transparent_partial : forall l c n d q f enabled elapsed a s w,
    (forall a w, binds a = false -> f a w = (w, Err TypeError)) -> (forall w, format_args a w = w) ->
    let timed := call enabled elapsed (decorate l c n d q (Plain f)) a s w in
    let plain := f a w in
    snd (fst timed) = fst plain /\ snd timed = (snd plain : res V).
  Proof.
    intros l c n d q f enabled elapsed a s w Hb Hf. cbv zeta. unfold decorate. destruct (Nat.ltb l c); cbn [TicTocModel.call]; [destruct (f a w); auto|].
    destruct (f a w) as [w' r] eqn:E. destruct (enabled && d && negb (no_args a)); [|auto]. destruct (binds a) eqn:B; cbn; [rewrite Hf; auto|].
    rewrite Hb in E by exact B. injection E as <- <-. auto.
  Qed.
  (** one call is counted once under its name, also if it ends with an exception *)
  Theorem C258_counted : forall l c n d q f enabled elapsed a s w k, c <= l -> (d = false \/ enabled = false \/ no_args a = true \/ binds a = true) ->
    let name := match n with None => ("[tic-toc]" ++ q ++ "@")%string | Some x => x end in
    stat (fst (fst (call enabled elapsed (decorate l c n d q (Plain (V := V) f)) a s w))) k =
      if String.eqb name k then (fst (stat s k) + 1, (snd (stat s k) + elapsed)%R) else stat s k.
  Proof.
    intros l c n d q f enabled elapsed a s w k Hl Hd name.
    assert (E : fst (fst (call enabled elapsed (decorate l c n d q (Plain (V := V) f)) a s w)) = count_call s name elapsed).
    { unfold decorate. destruct (Nat.ltb_spec l c); [lia|]. cbn [TicTocModel.call]. destruct (f a w) as [w' r].
      destruct (enabled && d && negb (no_args a)) eqn:X; [|reflexivity]. destruct (binds a); [reflexivity|].
      apply andb_true_iff in X as [X X3]. apply andb_true_iff in X as [X1 X2]. apply negb_true_iff in X3. destruct Hd as [H1|[H1|[H1|H1]]]; congruence. }
    rewrite E. clear E. assert (S : forall (s : stats) k, stat s k = match get s k with Some v => v | None => (0, 0%R) end) by (intros s' k'; unfold stat, get; destruct (find _ s'); reflexivity).
    unfold count_call. rewrite (S (put s name _)), get_put. destruct (String.eqb_spec name k) as [->|N]; [reflexivity|]. now rewrite S.
  Qed.
  (** with details a call whose arguments do not fit is not counted *)
  Theorem C258_uncounted_refuted : forall n q f elapsed a s w, no_args a = false -> binds a = false ->
    fst (fst (call true elapsed (decorate 1 1 n true q (Plain (V := V) f)) a s w)) = s.
  Proof. intros n q f elapsed a s w H1 H2. cbn. destruct (f a w). rewrite H1, H2. reflexivity. Qed.
End C258.
(** an iterator argument: formatting it for the log takes up to five elements from the caller, although the function itself takes none *)
Lemma format_iterator_skipn : forall {X} (l : list X), format_iterator 0 l = skipn 5 l.
Proof. intros X [|a [|b [|c [|d [|e l]]]]]; reflexivity. Qed.
Theorem C258_iterator_refuted : forall (rest : list nat) elapsed q s,
  let timed := call (fun _ : unit => false) (fun _ => true) (fun _ => format_iterator 0) true elapsed (decorate 1 1 None true q (Plain (fun _ w => (w, Ok 0)))) tt s rest in
  snd (fst timed) = skipn 5 rest /\ snd timed = Ok 0.
Proof. intros rest elapsed q s. cbn. rewrite format_iterator_skipn. auto. Qed.

(** ** C259: the report *)
(** the statistics after a history of calls: names of the timed functions and elapsed times *)
Definition history (events : list (string * R)) : stats := fold_left (fun s e => count_call s (fst e) (snd e)) events [].
Definition calls (events : list (string * R)) (k : string) : list R := map snd (filter (fun e => String.eqb (fst e) k) events).
Definition total (l : list R) : R := fold_right Rplus 0%R l.
Lemma total_app : forall l m, total (l ++ m) = (total l + total m)%R.
Proof. unfold total. induction l as [|a l IH]; intros m; cbn; [ring|]. rewrite IH. ring. Qed.
Lemma stat_get : forall (s : stats) k, stat s k = match get s k with Some v => v | None => (0, 0%R) end.
Proof. intros s k. unfold stat, get. destruct (find _ s); reflexivity. Qed.
Lemma count_get : forall s a t k, get (count_call s a t) k = if String.eqb a k then Some (fst (stat s a) + 1, (snd (stat s a) + t)%R) else get s k.
Proof. intros s a t k. unfold count_call. apply get_put. Qed.
Lemma history_get : forall events k, get (history events) k = match calls events k with [] => None | l => Some (length l, total l) end.
Proof.
  intros events k. unfold history. induction events as [|[a t] events IH] using rev_ind; [reflexivity|]. rewrite fold_left_app. cbn [fold_left fst snd].
  rewrite count_get. unfold calls in *. rewrite filter_app, map_app. cbn [filter fst]. destruct (String.eqb_spec a k) as [->|N].
  - cbn [map snd]. rewrite stat_get, IH. destruct (map snd (filter (fun e => String.eqb (fst e) k) events)) as [|b l].
    + cbn. f_equal. f_equal. ring.
    + cbn [fst snd app]. change (b :: l ++ [t]) with ((b :: l) ++ [t]). rewrite total_app, app_length. cbn [total fold_right length]. rewrite Rplus_0_r. reflexivity.
  - cbn [map]. rewrite app_nil_r. exact IH.
Qed.
Lemma history_nodup : forall events, NoDup (map fst (history events)).
Proof. intros events. unfold history. induction events as [|e events IH] using rev_ind; [constructor|]. rewrite fold_left_app. cbn. apply put_nodup. exact IH. Qed.
Lemma history_keys : forall events k, In k (map fst (history events)) -> exists e, In e events /\ fst e = k.
Proof.
  intros events k. unfold history. induction events as [|e events IH] using rev_ind; [intros []|]. rewrite fold_left_app. cbn [fold_left]. unfold count_call. rewrite put_keys.
  intros [->|H]; [exists e; split; [apply in_or_app; right; now left|reflexivity]|]. destruct (IH H) as (x & Hx & E). exists x. split; [apply in_or_app; now left|exact E].
Qed.
Lemma short_default : forall q, short_name (prefix ++ q ++ suffix) = q.
Proof.
  intros q. unfold short_name, prefix, suffix. cbn [append String.length substring].
  assert (L : forall q, String.length (q ++ "@") = S (String.length q)) by (induction q0 as [|c q0 IH]; cbn; [reflexivity|now rewrite IH]).
  rewrite L. replace (S (S (S (S (S (S (S (S (S (S (String.length q)))))))))) - 1 - 9) with (String.length q) by lia.
  induction q as [|c q IH]; cbn; [reflexivity|]. now rewrite IH.
Qed.
Lemma find_report : forall (s : stats) r q, NoDup (map fst s) -> (forall e1 e2, In e1 s -> In e2 s -> short_name (fst e1) = short_name (fst e2) -> fst e1 = fst e2) ->
  get (fold_left (fun r e => put r (short_name (fst e)) (fst (snd e), snd (snd e), (snd (snd e) / INR (fst (snd e)))%R)) s r) q =
  match find (fun e => String.eqb (short_name (fst e)) q) s with Some e => Some (fst (snd e), snd (snd e), (snd (snd e) / INR (fst (snd e)))%R) | None => get r q end.
Proof.
  induction s as [|[k [n t]] s IH]; intros r q N I; [reflexivity|]. cbn [map fst] in N. inversion N as [|? ? N1 N2]; subst. cbn [fold_left fst snd find].
  rewrite IH; [|exact N2|intros e1 e2 H1 H2; apply I; now right]. rewrite get_put. destruct (String.eqb_spec (short_name k) q) as [E|E]; [|reflexivity].
  destruct (find (fun e => String.eqb (short_name (fst e)) q) s) as [e|] eqn:F; [|reflexivity]. apply find_some in F as [F1 F2]. apply String.eqb_eq in F2.
  elim N1. assert (Ek : k = fst e) by (apply (I (k, (n, t)) e); [now left|now right|cbn [fst]; congruence]). rewrite Ek. now apply in_map.
Qed.
(** functions decorated without a name of their own: after every history of calls the report has, for every function that was called, the number of its calls,
    their total time and the average *)
Theorem C259_report : forall events, (forall e, In e events -> exists q, fst e = ("[tic-toc]" ++ q ++ "@")%string) ->
  forall q, get (report (history events)) q =
    match calls events ("[tic-toc]" ++ q ++ "@") with
    | [] => None
    | l => Some (length l, total l, (total l / INR (length l))%R)
    end.
Proof.
  intros events H q.
  assert (K : forall e, In e (history events) -> exists q, fst e = (prefix ++ q ++ suffix)%string).
  { intros e He. destruct (history_keys events (fst e) (in_map fst _ _ He)) as (x & Hx & E). destruct (H x Hx) as (p & Hp). exists p. rewrite <- E. exact Hp. }
  unfold report. rewrite find_report; [|apply history_nodup|].
  2: { intros e1 e2 H1 H2 E. destruct (K e1 H1) as (p1 & E1). destruct (K e2 H2) as (p2 & E2). rewrite E1, E2, !short_default in E. now rewrite E1, E2, E. }
  assert (G : find (fun e => String.eqb (short_name (fst e)) q) (history events) = find (fun e => String.eqb (fst e) (prefix ++ q ++ suffix)) (history events)).
  { revert K. generalize (history events). induction s as [|e s IH]; intros K; [reflexivity|]. cbn [find]. destruct (K e (or_introl eq_refl)) as (p & E). rewrite E, short_default.
    rewrite IH by (intros; apply K; now right). destruct (String.eqb_spec p q) as [->|N]; [now rewrite String.eqb_refl|].
    destruct (String.eqb_spec (prefix ++ p ++ suffix) (prefix ++ q ++ suffix)) as [C|_]; [|reflexivity]. elim N. rewrite <- (short_default p), <- (short_default q), C. reflexivity. }
  rewrite G. clear G. transitivity (option_map (fun v : nat * R => (fst v, snd v, (snd v / INR (fst v))%R)) (get (history events) (prefix ++ q ++ suffix))).
  - unfold get. destruct (find _ (history events)); reflexivity.
  - rewrite history_get. change (prefix ++ q ++ suffix)%string with ("[tic-toc]" ++ q ++ "@")%string. destruct (calls events _); reflexivity.
Qed.
(** the average times the number of calls is the total *)
Theorem C259_average : forall events q n t avg, get (report (history events)) q = Some (n, t, avg) -> (forall e, In e events -> exists q, fst e = ("[tic-toc]" ++ q ++ "@")%string) ->
  1 <= n /\ (avg * INR n = t)%R.
Proof.
  intros events q n t avg H HE. rewrite C259_report in H by exact HE. destruct (calls events _) as [|a l] eqn:E; [discriminate|]. injection H as <- <- <-. split; [cbn; lia|].
  unfold Rdiv. rewrite Rmult_assoc, Rinv_l, Rmult_1_r; [reflexivity|]. apply not_0_INR. discriminate.
Qed.
(** functions with names of their own: the report cuts nine characters from the front and one from the end, and names that agree after that hide each other *)
Theorem C259_names_refuted : exists events, length events = 2 /\ NoDup (map fst events) /\ map fst (report (history events)) = ["fit"].
Proof.
  exists [("module-1.fit1", 1%R); ("module-2.fit2", 2%R)]. split; [reflexivity|]. split; [repeat constructor; cbn; intuition discriminate|]. reflexivity.
Qed.

(** ** Concrete cases *)
Definition ev : list (string * R) := [("[tic-toc]m.f@", 1%R); ("[tic-toc]m.g@", 5%R); ("[tic-toc]m.f@", 3%R)].
Example C259_case : get (report (history ev)) "m.f" = Some (2, (1 + (3 + 0))%R, ((1 + (3 + 0)) / INR 2)%R) /\ get (report (history ev)) "m.h" = None.
Proof.
  assert (H : forall e, In e ev -> exists q, fst e = ("[tic-toc]" ++ q ++ "@")%string) by (intros e [<-|[<-|[<-|[]]]]; [exists "m.f"|exists "m.g"|exists "m.f"]; reflexivity).
  rewrite !C259_report by exact H. split; reflexivity.
Qed.
(** a function that fails is counted *)
Example C258_case : stat (fst (fst (call (fun a : nat => Nat.eqb a 0) (fun _ => true) (fun _ w => w) true 2%R (decorate 1 1 None true "m.f" (Plain (fun a w => (w + a, Err (A := nat) KeyError)))) 3 [] 4))) "[tic-toc]m.f@" = (1, (0 + 2)%R).
Proof. rewrite C258_counted; [reflexivity|lia|auto]. Qed.
Print Assumptions C258_transparent_partial.
Print Assumptions C258_counted.
Print Assumptions C259_report.
