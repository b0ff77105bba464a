(** C238-C241: properties of get_params and set_params of the estimators (base_models.py). *)
From Coq Require Import ZArith String Ascii Lia.
From Verif Require Import Base ParamsModel.
Unset Implicit Arguments.
Local Notation length := List.length.
Local Open Scope string_scope.
Local Open Scope list_scope.
Local Open Scope nat_scope.

(** a parameter name that does not contain "__" and does not end with "_" *)
Definition good (a : string) : Prop := partition (a ++ "_") = ((a ++ "_")%string, None).
Definition goods (h : heap) : Prop := forall i k, In k (ob_params (h i)) -> good k.
(** constructor arguments are distinct *)
Definition distinct (h : heap) : Prop := forall i, NoDup (ob_params (h i)).

Lemma partition_cons : forall c r, partition (String c r) =
  match r with
  | String c2 r2 => if Ascii.eqb c "_" && Ascii.eqb c2 "_" then (EmptyString, Some r2) else let (a, b) := partition r in (String c a, b)
  | EmptyString => (String c EmptyString, None)
  end.
Proof. intros c [|c2 r2]; reflexivity. Qed.
Lemma good_cons : forall c a, good (String c a) -> good a /\ forall t,
  partition (String c (a ++ String "_" t)) = let (x, y) := partition (a ++ String "_" t) in (String c x, y).
Proof.
  intros c a H. unfold good in H. cbn [append] in H.
  assert (Hne : exists c2 r2, forall t, (a ++ String "_" t)%string = String c2 (r2 t)).
  { destruct a as [|c2 a]; [exists "_"%char, (fun t => t); reflexivity|exists c2, (fun t => (a ++ String "_" t)%string); reflexivity]. }
  destruct Hne as (c2 & r2 & Hr). rewrite partition_cons in H. rewrite (Hr EmptyString) in H at 1.
  destruct (Ascii.eqb c "_" && Ascii.eqb c2 "_")%bool eqn:E; [discriminate|].
  split.
  - unfold good. change (a ++ "_")%string with (a ++ String "_" EmptyString)%string in *.
    destruct (partition (a ++ String "_" EmptyString)) as [x y]. injection H as -> ->. reflexivity.
  - intros t. rewrite partition_cons. rewrite (Hr t) at 1. rewrite E. reflexivity.
Qed.
Lemma partition_good_sub : forall a s, good a -> partition (a ++ "__" ++ s) = (a, Some s).
Proof.
  induction a as [|c a IH]; intros s H; [reflexivity|]. destruct (good_cons c a H) as [G E].
  change ((String c a ++ "__" ++ s)%string) with (String c (a ++ String "_" (String "_" s))). rewrite E.
  change (a ++ String "_" (String "_" s))%string with (a ++ "__" ++ s)%string. rewrite (IH s G). reflexivity.
Qed.
Lemma append_nil_r : forall s, (s ++ "" = s)%string. Proof. induction s; cbn; congruence. Qed.
Lemma partition_good : forall a, good a -> partition a = (a, None).
Proof.
  induction a as [|c a IH]; intros H; [reflexivity|]. destruct (good_cons c a H) as [G _]. specialize (IH G).
  unfold good in H. cbn [append] in H. rewrite partition_cons in *. destruct a as [|c2 a]; [reflexivity|]. cbn [append] in H.
  destruct (Ascii.eqb c "_" && Ascii.eqb c2 "_")%bool; [discriminate|]. rewrite IH. reflexivity.
Qed.
Lemma partition_inv : forall s a b, partition s = (a, b) -> s = match b with None => a | Some r => (a ++ "__" ++ r)%string end.
Proof.
  induction s as [|c r IH]; intros a b H; [injection H as <- <-; reflexivity|]. rewrite partition_cons in H.
  destruct r as [|c2 r2]; [injection H as <- <-; reflexivity|].
  destruct (Ascii.eqb c "_" && Ascii.eqb c2 "_")%bool eqn:E.
  - injection H as <- <-. apply Bool.andb_true_iff in E. destruct E as [E1 E2]. apply Ascii.eqb_eq in E1, E2. subst. reflexivity.
  - destruct (partition (String c2 r2)) as [x y] eqn:E2. injection H as <- <-. rewrite (IH x y eq_refl) at 1. destruct y; reflexivity.
Qed.

Section DictL.
Context {V : Type}.
Lemma dget_dset : forall (d : list (string * V)) k v j, dget (dset d k v) j = if String.eqb k j then Some v else dget d j.
Proof.
  induction d as [|[i u] d IH]; intros k v j; cbn [dset dget]; [destruct (String.eqb k j); reflexivity|].
  destruct (String.eqb i k) eqn:E; cbn [dget].
  - apply String.eqb_eq in E. subst i. destruct (String.eqb k j); reflexivity.
  - destruct (String.eqb i j) eqn:E2; [|apply IH]. apply String.eqb_eq in E2. subst j.
    destruct (String.eqb k i) eqn:E3; [|reflexivity]. apply String.eqb_eq in E3. subst. rewrite String.eqb_refl in E. discriminate.
Qed.
Lemma dget_dupdate_out : forall (e d : list (string * V)) j, (forall k v, In (k, v) e -> k <> j) -> dget (dupdate d e) j = dget d j.
Proof.
  induction e as [|[k v] e IH]; intros d j H; [reflexivity|]. unfold dupdate in *. cbn [fold_left fst snd]. rewrite IH.
  - rewrite dget_dset. destruct (String.eqb k j) eqn:E; [|reflexivity]. apply String.eqb_eq in E. exfalso. exact (H k v (or_introl eq_refl) E).
  - intros k' v' Hin. apply (H k' v'). right. exact Hin.
Qed.
Lemma dset_fresh : forall (d : list (string * V)) k v, dget d k = None -> dset d k v = d ++ [(k, v)].
Proof.
  induction d as [|[i u] d IH]; intros k v H; [reflexivity|]. cbn [dget] in H. cbn [dset app]. destruct (String.eqb i k); [discriminate|].
  rewrite IH by exact H. reflexivity.
Qed.
Lemma dset_same : forall (d : list (string * V)) k v, dget d k = Some v -> dset d k v = d.
Proof.
  induction d as [|[i u] d IH]; intros k v H; [discriminate|]. cbn [dget] in H. cbn [dset]. destruct (String.eqb i k) eqn:E.
  - injection H as ->. reflexivity.
  - rewrite IH by exact H. reflexivity.
Qed.
Lemma dget_app : forall (d e : list (string * V)) k, dget (d ++ e) k = match dget d k with Some v => Some v | None => dget e k end.
Proof. induction d as [|[i u] d IH]; intros e k; [reflexivity|]. cbn [app dget]. destruct (String.eqb i k); [reflexivity|apply IH]. Qed.
Lemma dget_none_notin : forall (d : list (string * V)) k, dget d k = None -> ~ In k (map fst d).
Proof.
  induction d as [|[i u] d IH]; intros k H Hin; [exact Hin|]. cbn [dget] in H. destruct (String.eqb i k) eqn:E; [discriminate|].
  destruct Hin as [Hin|Hin]; [cbn in Hin; subst; rewrite String.eqb_refl in E; discriminate|exact (IH k H Hin)].
Qed.
Lemma dget_notin : forall (d : list (string * V)) k, ~ In k (map fst d) -> dget d k = None.
Proof.
  induction d as [|[i u] d IH]; intros k H; [reflexivity|]. cbn [dget]. destruct (String.eqb i k) eqn:E.
  - apply String.eqb_eq in E. exfalso. apply H. left. exact E.
  - apply IH. intros Hin. apply H. right. exact Hin.
Qed.
Lemma dupdate_fresh : forall (e d : list (string * V)), NoDup (map fst e) -> (forall k, In k (map fst e) -> dget d k = None) -> dupdate d e = d ++ e.
Proof.
  induction e as [|[k v] e IH]; intros d Hn H; [rewrite app_nil_r; reflexivity|]. unfold dupdate in *. cbn [fold_left fst snd].
  cbn [map fst] in Hn. apply NoDup_cons_iff in Hn. destruct Hn as [Hk Hn].
  rewrite dset_fresh by (apply H; left; reflexivity). rewrite IH.
  - rewrite <- app_assoc. reflexivity.
  - exact Hn.
  - intros j Hj. rewrite dget_app, (H j (or_intror Hj)). cbn [dget]. destruct (String.eqb k j) eqn:E; [|reflexivity].
    apply String.eqb_eq in E. subst. exfalso. exact (Hk Hj).
Qed.
End DictL.

(** the loop of get_params *)
Fixpoint loop (fuel : nat) (h : heap) (deep : bool) (id : nat) (ks : list string) (out : list (string * value)) : res (list (string * value)) :=
  match ks with
  | [] => Ok out
  | k :: ks =>
    match dget (ob_attrs (h id)) k with
    | None => Err AttributeError
    | Some v =>
      match deep, v with
      | true, Ref j => do items <- get_params fuel h true j;
                       loop fuel h deep id ks (dset (dupdate out (map (fun kv => (k ++ "__" ++ fst kv, snd kv))%string items)) k v)
      | _, _ => loop fuel h deep id ks (dset out k v)
      end
    end
  end.
Lemma get_params_loop : forall fuel h deep id, get_params (S fuel) h deep id = loop fuel h deep id (ob_params (h id)) [].
Proof.
  intros fuel h deep id. cbn [get_params]. generalize (@nil (string * value)). generalize (ob_params (h id)).
  induction l as [|k ks IH]; intros out; [reflexivity|]. cbn [loop]. destruct (dget (ob_attrs (h id)) k) as [v|]; [|reflexivity].
  destruct deep; [|apply IH]. destruct v as [n|j]; [apply IH|]. destruct (get_params fuel h true j) as [items|e]; [|reflexivity]. cbn [bind]. apply IH.
Qed.

Definition pre (k : string) (items : list (string * value)) : list (string * value) := map (fun kv => (k ++ "__" ++ fst kv, snd kv))%string items.
(** the block of one parameter: the entries of its object, then its own *)
Definition block (fuel : nat) (h : heap) (id : nat) (k : string) : list (string * value) :=
  match dget (ob_attrs (h id)) k with
  | Some (Ref j) => pre k (match get_params fuel h true j with Ok items => items | Err _ => [] end) ++ [(k, Ref j)]
  | Some v => [(k, v)]
  | None => []
  end.
Definition ok_param (fuel : nat) (h : heap) (id : nat) (k : string) : Prop :=
  match dget (ob_attrs (h id)) k with
  | Some (Ref j) => exists items, get_params fuel h true j = Ok items
  | Some _ => True
  | None => False
  end.

Lemma part_key : forall k kv s, good k -> kv = (k ++ "__" ++ s)%string -> partition kv = (k, Some s).
Proof. intros k kv s G ->. apply partition_good_sub. exact G. Qed.
Lemma pre_key : forall k items x, good k -> In x (map fst (pre k items)) -> exists s, partition x = (k, Some s) /\ In s (map fst items).
Proof.
  intros k items x G H. unfold pre in H. rewrite map_map in H. apply in_map_iff in H. destruct H as ([s v] & <- & Hin). cbn [fst].
  exists s. split; [apply partition_good_sub; exact G|]. apply in_map_iff. exists (s, v). split; [reflexivity|exact Hin].
Qed.
Lemma pre_nodup : forall k items, good k -> NoDup (map fst items) -> NoDup (map fst (pre k items)).
Proof.
  intros k items G H. unfold pre. rewrite map_map. induction items as [|[s v] items IH]; [constructor|]. cbn [map fst] in *.
  apply NoDup_cons_iff in H. destruct H as [H1 H2]. constructor; [|exact (IH H2)]. intros Hin. apply in_map_iff in Hin.
  destruct Hin as ([t u] & E & Hin). cbn [fst] in E. apply (f_equal partition) in E. rewrite !partition_good_sub in E by exact G.
  injection E as ->. apply H1. apply in_map_iff. exists (s, u). split; [reflexivity|exact Hin].
Qed.

Lemma loop_inv : forall fuel h id, goods h -> (forall j items, get_params fuel h true j = Ok items -> NoDup (map fst items)) ->
  forall ks out r, (forall k, In k ks -> In k (ob_params (h id))) -> NoDup ks ->
  (forall x, In x (map fst out) -> ~ In (fst (partition x)) ks) ->
  loop fuel h true id ks out = Ok r ->
  r = out ++ flat_map (block fuel h id) ks /\ forall k, In k ks -> ok_param fuel h id k.
Proof.
  intros fuel h id HG Hitems. induction ks as [|k ks IH]; intros out r Hks Hnd Hout H; cbn [loop] in H.
  - injection H as <-. cbn. rewrite app_nil_r. split; [reflexivity|intros k []].
  - assert (Gk : good k) by (apply (HG id); apply Hks; left; reflexivity).
    apply NoDup_cons_iff in Hnd. destruct Hnd as [Hk Hnd].
    assert (Hfresh : dget out k = None).
    { apply dget_notin. intros Hin. apply (Hout k Hin). left. rewrite (partition_good k Gk). reflexivity. }
    destruct (dget (ob_attrs (h id)) k) as [v|] eqn:Ea; [|discriminate].
    assert (Hblock : exists b, loop fuel h true id ks (out ++ b) = Ok r /\ b = block fuel h id k /\ ok_param fuel h id k /\
                               forall x, In x (map fst b) -> fst (partition x) = k).
    { unfold block, ok_param. rewrite Ea. destruct v as [n|j].
      - exists [(k, Atom n)]. rewrite <- (dset_fresh out k (Atom n) Hfresh). split; [exact H|]. split; [reflexivity|]. split; [exact Logic.I|].
        intros x [<-|[]]. cbn [fst]. rewrite (partition_good k Gk). reflexivity.
      - destruct (get_params fuel h true j) as [items|e] eqn:Ei; [|discriminate]. cbn [bind] in H. fold (pre k items) in H.
        rewrite dupdate_fresh in H; [|apply pre_nodup; [exact Gk|exact (Hitems j items Ei)]|].
        + rewrite dset_fresh in H.
          * exists (pre k items ++ [(k, Ref j)]). rewrite app_assoc. split; [exact H|]. split; [reflexivity|]. split; [exists items; reflexivity|].
            intros x Hx. rewrite map_app in Hx. apply in_app_or in Hx. destruct Hx as [Hx|[<-|[]]].
            -- destruct (pre_key k items x Gk Hx) as (s & E & _). rewrite E. reflexivity.
            -- cbn [fst]. rewrite (partition_good k Gk). reflexivity.
          * rewrite dget_app, Hfresh. apply dget_notin. intros Hx. destruct (pre_key k items k Gk Hx) as (s & E & _).
            rewrite (partition_good k Gk) in E. discriminate.
        + intros x Hx. apply dget_notin. intros Hx2. destruct (pre_key k items x Gk Hx) as (s & E & _).
          apply (Hout x Hx2). rewrite E. left. reflexivity. }
    destruct Hblock as (b & Hl & -> & Hok & Hb). apply IH in Hl.
    + destruct Hl as [-> Hall]. split; [cbn [flat_map]; rewrite app_assoc; reflexivity|]. intros k' [<-|Hk']; [exact Hok|exact (Hall k' Hk')].
    + intros k' Hk'. apply Hks. right. exact Hk'.
    + exact Hnd.
    + intros x Hx. rewrite map_app in Hx. apply in_app_or in Hx. destruct Hx as [Hx|Hx].
      * intros Hin. apply (Hout x Hx). right. exact Hin.
      * rewrite (Hb x Hx). exact Hk.
Qed.

Lemma NoDup_app_i : forall A (l m : list A), NoDup l -> NoDup m -> (forall x, In x l -> ~ In x m) -> NoDup (l ++ m).
Proof.
  induction l as [|a l IH]; intros m H1 H2 H3; [exact H2|]. cbn. apply NoDup_cons_iff in H1. destruct H1 as [H0 H1]. constructor.
  - intros Hin. apply in_app_or in Hin. destruct Hin as [Hin|Hin]; [exact (H0 Hin)|exact (H3 a (or_introl eq_refl) Hin)].
  - apply IH; [exact H1|exact H2|]. intros x Hx. apply H3. right. exact Hx.
Qed.

(** the result is the concatenation of the blocks, and its keys are distinct *)
Lemma get_params_blocks : forall fuel h id r, goods h -> distinct h -> get_params (S fuel) h true id = Ok r ->
  (forall j items, get_params fuel h true j = Ok items -> NoDup (map fst items)) ->
  r = flat_map (block fuel h id) (ob_params (h id)) /\ forall k, In k (ob_params (h id)) -> ok_param fuel h id k.
Proof.
  intros fuel h id r HG HD H Hitems. rewrite get_params_loop in H.
  apply loop_inv in H; [exact H|exact HG|exact Hitems|auto|apply HD|intros x []].
Qed.
Lemma block_keys : forall fuel h id k x, good k -> In x (map fst (block fuel h id k)) -> fst (partition x) = k.
Proof.
  intros fuel h id k x G H. unfold block in H. destruct (dget (ob_attrs (h id)) k) as [[n|j]|]; [|rewrite map_app in H; apply in_app_or in H; destruct H as [H|H]|destruct H].
  - destruct H as [<-|[]]. cbn [fst]. rewrite (partition_good k G). reflexivity.
  - destruct (pre_key _ _ _ G H) as (s & E & _). rewrite E. reflexivity.
  - destruct H as [<-|[]]. cbn [fst]. rewrite (partition_good k G). reflexivity.
Qed.
Lemma get_params_nodup : forall fuel h, goods h -> distinct h -> forall id r, get_params fuel h true id = Ok r -> NoDup (map fst r).
Proof.
  induction fuel as [|fuel IH]; intros h HG HD id r H; [discriminate|].
  destruct (get_params_blocks fuel h id r HG HD H (IH h HG HD)) as [-> _].
  assert (G : forall k, In k (ob_params (h id)) -> good k) by (intros k; apply HG).
  assert (IHf := IH h HG HD). specialize (HD id). clear H. induction (ob_params (h id)) as [|k ks IHk]; [constructor|]. cbn [flat_map]. rewrite map_app.
  apply NoDup_cons_iff in HD. destruct HD as [Hk HD]. apply NoDup_app_i.
  - assert (Gk : good k) by (apply G; left; reflexivity). unfold block. destruct (dget (ob_attrs (h id)) k) as [[n|j]|]; [| |constructor].
    + constructor; [intros []|constructor].
    + rewrite map_app. apply NoDup_app_i; [|constructor; [intros []|constructor]|].
      * apply pre_nodup; [exact Gk|]. destruct (get_params fuel h true j) as [items|e] eqn:E; [|constructor].
        exact (IHf j items E).
      * intros x Hx [<-|[]]. destruct (pre_key _ _ _ Gk Hx) as (s & E & _). cbn [fst] in E. rewrite (partition_good k Gk) in E. discriminate.
  - apply IHk; first [exact HD|intros k' Hk'; apply G; right; exact Hk'].
  - intros x Hx Hx2. assert (E := block_keys fuel h id k x (G k (or_introl eq_refl)) Hx).
    rewrite in_map_iff in Hx2. destruct Hx2 as (xv & <- & Hx2). apply in_flat_map in Hx2. destruct Hx2 as (k' & Hk' & Hx2).
    assert (E2 := block_keys fuel h id k' (fst xv) (G k' (or_intror Hk')) (in_map fst _ _ Hx2)). rewrite E in E2. subst k'. exact (Hk Hk').
Qed.

Lemma dget_in : forall V (d : list (string * V)) k v, NoDup (map fst d) -> (dget d k = Some v <-> In (k, v) d).
Proof.
  induction d as [|[i u] d IH]; intros k v Hn; [split; [discriminate|intros []]|]. cbn [map fst] in Hn. apply NoDup_cons_iff in Hn.
  destruct Hn as [Hi Hn]. cbn [dget]. destruct (String.eqb i k) eqn:E.
  - apply String.eqb_eq in E. subst i. split.
    + intros [= ->]. left. reflexivity.
    + intros [[= ->]|Hin]; [reflexivity|]. exfalso. apply Hi. exact (in_map fst _ _ Hin).
  - rewrite (IH k v Hn). split; [intros H; right; exact H|]. intros [[= -> ->]|H]; [rewrite String.eqb_refl in E; discriminate|exact H].
Qed.

(** specification: the value found by following parameter names, and the name of such a path *)
Inductive at_path (h : heap) : nat -> list string -> value -> Prop :=
| at_here : forall id k v, In k (ob_params (h id)) -> dget (ob_attrs (h id)) k = Some v -> at_path h id [k] v
| at_sub : forall id k j p v, In k (ob_params (h id)) -> dget (ob_attrs (h id)) k = Some (Ref j) -> at_path h j p v -> at_path h id (k :: p) v.
Fixpoint join (p : list string) : string :=
  match p with [] => "" | [k] => k | k :: p => (k ++ "__" ++ join p)%string end.
Lemma join_cons : forall h i p v k, at_path h i p v -> join (k :: p) = (k ++ "__" ++ join p)%string.
Proof. intros h i p v k H. destruct H; reflexivity. Qed.

(** C238: the entries of get_params() are exactly the values reached by a path of parameter names, under the names joined by "__",
    each once *)
Theorem C238_entries : forall fuel h id r, goods h -> distinct h -> get_params fuel h true id = Ok r ->
  NoDup (map fst r) /\ forall key v, dget r key = Some v <-> exists p, key = join p /\ at_path h id p v.
Proof.
  intros fuel h id r HG HD H. split; [exact (get_params_nodup fuel h HG HD id r H)|].
  revert id r H. induction fuel as [|fuel IH]; intros id r H key v; [discriminate|].
  rewrite (dget_in _ r key v (get_params_nodup (S fuel) h HG HD id r H)).
  destruct (get_params_blocks fuel h id r HG HD H (get_params_nodup fuel h HG HD)) as [-> Hok].
  rewrite in_flat_map. split.
  - intros (k & Hk & Hin). specialize (Hok k Hk). unfold ok_param in Hok. unfold block in Hin.
    destruct (dget (ob_attrs (h id)) k) as [[n|j]|] eqn:Ea; [| |destruct Hok].
    + destruct Hin as [[= <- <-]|[]]. exists [k]. split; [reflexivity|]. apply at_here; assumption.
    + destruct Hok as [items Ei]. rewrite Ei in Hin. apply in_app_or in Hin. destruct Hin as [Hin|[[= <- <-]|[]]].
      * unfold pre in Hin. apply in_map_iff in Hin. destruct Hin as ([s u] & [= <- <-] & Hin).
        assert (Hd : dget items s = Some u) by (apply dget_in; [exact (get_params_nodup fuel h HG HD j items Ei)|exact Hin]).
        apply (IH j items Ei s u) in Hd. destruct Hd as (p & -> & Hp). exists (k :: p).
        split; [symmetry; exact (join_cons h j p u k Hp)|]. exact (at_sub h id k j p u Hk Ea Hp).
      * exists [k]. split; [reflexivity|]. apply at_here; assumption.
  - intros (p & -> & Hp). destruct Hp as [id k v Hk Ea|id k j p v Hk Ea Hp].
    + exists k. split; [exact Hk|]. unfold block. rewrite Ea. destruct v as [n|j]; [left; reflexivity|]. apply in_or_app. right. left. reflexivity.
    + exists k. split; [exact Hk|]. specialize (Hok k Hk). unfold ok_param in Hok. unfold block. rewrite Ea in *.
      destruct Hok as [items Ei]. rewrite Ei. apply in_or_app. left. unfold pre. apply in_map_iff. exists (join p, v). cbn [fst snd].
      split; [rewrite (join_cons h j p v k Hp); reflexivity|].
      apply dget_in; [exact (get_params_nodup fuel h HG HD j items Ei)|]. apply (IH j items Ei). exists p. split; [reflexivity|exact Hp].
Qed.

(** C238: get_params(deep=False) are the constructor arguments, in the order of their names *)
Theorem C238_shallow : forall fuel h id r, distinct h -> get_params (S fuel) h false id = Ok r ->
  map fst r = ob_params (h id) /\ forall k, In k (ob_params (h id)) -> dget r k = dget (ob_attrs (h id)) k /\ dget r k <> None.
Proof.
  intros fuel h id r HD H. rewrite get_params_loop in H. specialize (HD id).
  assert (Hinv : forall ks out r, NoDup ks -> (forall k, In k ks -> dget out k = None) -> loop fuel h false id ks out = Ok r ->
    map fst r = map fst out ++ ks /\ (forall k, In k ks -> dget r k = dget (ob_attrs (h id)) k /\ dget r k <> None) /\
    (forall k v, dget out k = Some v -> dget r k = Some v)).
  { clear. induction ks as [|k ks IH]; intros out r Hn Hf H; cbn [loop] in H.
    - injection H as <-. rewrite app_nil_r. split; [reflexivity|]. split; [intros k []|auto].
    - apply NoDup_cons_iff in Hn. destruct Hn as [Hk Hn]. destruct (dget (ob_attrs (h id)) k) as [v|] eqn:Ea; [|discriminate].
      assert (Hs : dset out k v = out ++ [(k, v)]) by (apply dset_fresh; apply Hf; left; reflexivity).
      rewrite Hs in H. apply IH in H; [|exact Hn|].
      + destruct H as (H1 & H2 & H3). split; [rewrite H1, map_app, <- app_assoc; reflexivity|]. split.
        * intros k' [<-|Hk']; [|exact (H2 k' Hk')]. assert (E : dget r k = Some v).
          { apply H3. rewrite dget_app, (Hf k (or_introl eq_refl)). cbn [dget]. rewrite String.eqb_refl. reflexivity. }
          rewrite E, Ea. split; [reflexivity|discriminate].
        * intros k' u Hu. apply H3. rewrite dget_app, Hu. reflexivity.
      + intros k' Hk'. rewrite dget_app, (Hf k' (or_intror Hk')). cbn [dget]. destruct (String.eqb k k') eqn:E; [|reflexivity].
        apply String.eqb_eq in E. subst. exfalso. exact (Hk Hk'). }
  destruct (Hinv _ [] _ HD (fun k _ => eq_refl) H) as (H1 & H2 & _). split; [exact H1|exact H2].
Qed.

(** C238: an argument that is no attribute makes get_params fail, whatever the other attributes are *)
Theorem C238_missing : forall fuel h deep id k, In k (ob_params (h id)) -> dget (ob_attrs (h id)) k = None ->
  forall r, get_params fuel h deep id <> Ok r.
Proof.
  intros fuel h deep id k Hk Ha r H. destruct fuel as [|fuel]; [discriminate|]. rewrite get_params_loop in H. revert H.
  generalize (@nil (string * value)). revert Hk. generalize (ob_params (h id)). induction l as [|k' ks IH]; intros Hk out H; [destruct Hk|].
  cbn [loop] in H. destruct Hk as [->|Hk]; [rewrite Ha in H; discriminate|].
  destruct (dget (ob_attrs (h id)) k') as [v|]; [|discriminate]. destruct deep; [|exact (IH Hk _ H)].
  destruct v as [n|j]; [exact (IH Hk _ H)|]. destruct (get_params fuel h true j); [|discriminate]. exact (IH Hk _ H).
Qed.

(** C238: it ends on every heap without cycles *)
Definition acyclic (h : heap) (rank : nat -> nat) : Prop :=
  forall i k j, In k (ob_params (h i)) -> dget (ob_attrs (h i)) k = Some (Ref j) -> rank j < rank i.
Definition complete (h : heap) : Prop := forall i k, In k (ob_params (h i)) -> dget (ob_attrs (h i)) k <> None.
Theorem C238_total : forall h rank, acyclic h rank -> complete h -> forall fuel deep id, rank id < fuel -> exists r, get_params fuel h deep id = Ok r.
Proof.
  intros h rank HA HC. induction fuel as [|fuel IH]; intros deep id Hr; [lia|]. rewrite get_params_loop.
  assert (Hks : forall k, In k (ob_params (h id)) -> In k (ob_params (h id))) by auto. revert Hks.
  generalize (@nil (string * value)). generalize (ob_params (h id)) at 1 3. induction l as [|k ks IHk]; intros out Hks; [eexists; reflexivity|].
  cbn [loop]. assert (Hk := Hks k (or_introl eq_refl)). destruct (dget (ob_attrs (h id)) k) as [v|] eqn:Ea; [|exfalso; exact (HC id k Hk Ea)].
  destruct deep; [|apply IHk; intros k' Hk'; apply Hks; right; exact Hk'].
  destruct v as [n|j]; [apply IHk; intros k' Hk'; apply Hks; right; exact Hk'|].
  destruct (IH true j) as [items E]; [specialize (HA id k j Hk Ea); lia|]. rewrite E. cbn [bind].
  apply IHk. intros k' Hk'. apply Hks. right. exact Hk'.
Qed.

(** the object and the name a path ends in *)
Inductive owner (h : heap) : nat -> list string -> nat -> string -> Prop :=
| ow_here : forall id k, owner h id [k] id k
| ow_sub : forall id k j p i s, dget (ob_attrs (h id)) k = Some (Ref j) -> owner h j p i s -> owner h id (k :: p) i s.

Lemma set_params_cons : forall f h id kv ps, set_params (S f) h id (kv :: ps) =
  match get_params (S f) h true id with
  | Err e => (h, Err e)
  | Ok valid => match set_loop id (kv :: ps) valid [] h with
                | (h, Err e) => (h, Err e)
                | (h, Ok (valid, nested)) => nest_loop (set_params f) valid nested h
                end
  end.
Proof. reflexivity. Qed.

Lemma get_sub : forall f h id r k j, goods h -> distinct h -> get_params (S f) h true id = Ok r -> In k (ob_params (h id)) ->
  dget (ob_attrs (h id)) k = Some (Ref j) -> exists items, get_params f h true j = Ok items.
Proof.
  intros f h id r k j HG HD H Hk Ha. destruct (get_params_blocks f h id r HG HD H (get_params_nodup f h HG HD)) as [_ Hok].
  specialize (Hok k Hk). unfold ok_param in Hok. rewrite Ha in Hok. exact Hok.
Qed.

(** C239: set_params of one key of get_params changes exactly the attribute at the end of the path *)
Theorem C239_single : forall h, goods h -> distinct h -> forall p f id r v0 v,
  get_params (S f) h true id = Ok r -> at_path h id p v0 ->
  exists i k, owner h id p i k /\ set_params (S f) h id [(join p, v)] = (setattr h i k v, Ok tt).
Proof.
  intros h HG HD p. induction p as [|k p IH]; intros f id r v0 v H Hp; [inversion Hp|].
  assert (Hin : In k (ob_params (h id))) by (inversion Hp; assumption).
  assert (Gk := HG id k Hin).
  assert (Hk : exists u, dget (ob_attrs (h id)) k = Some u) by (inversion Hp; eauto). destruct Hk as [u Hu].
  assert (Hrk : dget r k = Some u).
  { apply (proj2 (C238_entries (S f) h id r HG HD H)). exists [k]. split; [reflexivity|]. apply at_here; assumption. }
  rewrite set_params_cons, H.
  inversion Hp as [? ? ? _ _|? ? j ? ? _ Ha Hp']; subst.
  - exists id, k. split; [constructor|]. cbn [join set_loop]. rewrite (partition_good k Gk), Hrk. reflexivity.
  - destruct (get_sub f h id r k j HG HD H Hin Ha) as [items Ei]. destruct f as [|f]; [discriminate|].
    destruct (IH f j items v0 v Ei Hp') as (i & s & Ho & Hs). exists i, s. split; [exact (ow_sub h id k j p i s Ha Ho)|].
    rewrite (join_cons h j p v0 k Hp'). cbn [set_loop]. rewrite (partition_good_sub k _ Gk), Hrk. cbn [dget dset nest_loop].
    rewrite Hrk. rewrite Ha in Hu. injection Hu as <-. rewrite Hs. reflexivity.
Qed.

(** C239: and get_params then shows the new value under that key *)
Lemma owner_rank : forall h rank, acyclic h rank -> forall id p v0, at_path h id p v0 -> forall i k, owner h id p i k -> rank i <= rank id.
Proof.
  intros h rank HA id p v0 Hp. induction Hp as [id k v Hk Ea|id k j p v Hk Ea Hp IH]; intros i s Ho.
  - inversion Ho as [|? ? ? ? ? ? ? Ho2]; subst; [lia|]. inversion Ho2.
  - inversion Ho as [|? ? j2 ? ? ? Ha Ho2]; subst; [lia|]. rewrite Ea in Ha. injection Ha as <-. specialize (IH i s Ho2). specialize (HA id k j Hk Ea). lia.
Qed.
Lemma setattr_at : forall h rank, acyclic h rank -> forall id p v0, at_path h id p v0 -> forall i k v, owner h id p i k ->
  at_path (setattr h i k v) id p v.
Proof.
  intros h rank HA id p v0 Hp. induction Hp as [id k v0 Hk Ea|id k j p v0 Hk Ea Hp IH]; intros i s v Ho.
  - inversion Ho as [|? ? ? ? ? ? ? Ho2]; subst; [|inversion Ho2]. apply at_here; unfold setattr; rewrite Nat.eqb_refl; cbn [ob_params ob_attrs]; [exact Hk|].
    rewrite dget_dset, String.eqb_refl. reflexivity.
  - inversion Ho as [|? ? j2 ? ? ? Ha Ho2]; subst; [inversion Hp|]. rewrite Ea in Ha. injection Ha as <-.
    assert (Hlt : rank i < rank id). { assert (X := owner_rank h rank HA j p v0 Hp i s Ho2). specialize (HA id k j Hk Ea). lia. }
    apply at_sub with (j := j); [| |exact (IH i s v Ho2)]; unfold setattr; destruct (Nat.eqb id i) eqn:E; try (apply Nat.eqb_eq in E; subst; lia); assumption.
Qed.
Lemma setattr_params : forall h i k v, forall x, ob_params (setattr h i k v x) = ob_params (h x).
Proof. intros h i k v x. unfold setattr. destruct (Nat.eqb x i) eqn:E; [apply Nat.eqb_eq in E; subst; reflexivity|reflexivity]. Qed.
Theorem C239_set_then_get : forall h rank, goods h -> distinct h -> acyclic h rank -> forall p f id r v0 v,
  get_params (S f) h true id = Ok r -> at_path h id p v0 ->
  exists h', set_params (S f) h id [(join p, v)] = (h', Ok tt) /\
  forall f' r', get_params f' h' true id = Ok r' -> dget r' (join p) = Some v.
Proof.
  intros h rank HG HD HA p f id r v0 v H Hp. destruct (C239_single h HG HD p f id r v0 v H Hp) as (i & k & Ho & Hs).
  eexists. split; [exact Hs|]. intros f' r' H'. apply (proj2 (C238_entries f' (setattr h i k v) id r'
    (fun x y Hy => HG x y (eq_ind _ (fun l => In y l) Hy _ (setattr_params h i k v x)))
    (fun x => eq_ind_r (fun l => NoDup l) (HD x) (setattr_params h i k v x)) H')).
  exists p. split; [reflexivity|]. exact (setattr_at h rank HA id p v0 Hp i k v Ho).
Qed.

(** C239: a plain key and nested keys below it: the nested ones go to the new object, even if they are given first; the old object
    is left alone *)
Theorem C239_replace : forall h id f r k u n items s u2 v, goods h -> distinct h -> get_params (S (S f)) h true id = Ok r ->
  In k (ob_params (h id)) -> dget (ob_attrs (h id)) k = Some u ->
  get_params (S f) (setattr h id k (Ref n)) true n = Ok items -> at_path (setattr h id k (Ref n)) n [s] u2 ->
  set_params (S (S f)) h id [(join [k; s], v); (k, Ref n)] = (setattr (setattr h id k (Ref n)) n s v, Ok tt).
Proof.
  intros h id f r k u n items s u2 v HG HD H Hin Hu Hn Hs.
  assert (Gk := HG id k Hin).
  assert (HG2 : goods (setattr h id k (Ref n))) by (intros x y Hy; rewrite setattr_params in Hy; exact (HG x y Hy)).
  assert (HD2 : distinct (setattr h id k (Ref n))) by (intros x; rewrite setattr_params; apply HD).
  assert (Hrk : dget r k = Some u).
  { apply (proj2 (C238_entries _ h id r HG HD H)). exists [k]. split; [reflexivity|]. apply at_here; assumption. }
  rewrite set_params_cons, H. cbn [join set_loop]. rewrite (partition_good_sub k _ Gk), Hrk. cbn [set_loop].
  rewrite (partition_good k Gk), Hrk. cbn [dget dset nest_loop]. rewrite dget_dset, String.eqb_refl.
  destruct (C239_single _ HG2 HD2 [s] f n items u2 v Hn Hs) as (i & k2 & Ho & E).
  inversion Ho as [|? ? ? ? ? ? ? Ho2]; subst; [|inversion Ho2]. cbn [join] in E. rewrite E. reflexivity.
Qed.

(** C240: a key whose first part is no argument is a ValueError, and then no other object has changed *)
Lemma set_loop_other : forall id ps valid nested h h' r, set_loop id ps valid nested h = (h', r) -> forall i, i <> id -> h' i = h i.
Proof.
  intros id. induction ps as [|[key v] ps IH]; intros valid nested h h' r H i Hi; cbn [set_loop] in H; [injection H as <- _; reflexivity|].
  destruct (partition key) as [k [s|]]; (destruct (dget valid k); [|injection H as <- _; reflexivity]).
  - exact (IH _ _ _ _ _ H i Hi).
  - rewrite (IH _ _ _ _ _ H i Hi). unfold setattr. apply Nat.eqb_neq in Hi. rewrite Hi. reflexivity.
Qed.
Lemma set_loop_unknown : forall id ps valid nested h key v, In (key, v) ps -> dget valid (fst (partition key)) = None ->
  exists h', set_loop id ps valid nested h = (h', Err ValueError).
Proof.
  intros id. induction ps as [|[key0 v0] ps IH]; intros valid nested h key v Hin Hu; [destruct Hin|]. cbn [set_loop].
  destruct (partition key0) as [k s] eqn:Ep. destruct (dget valid k) as [w|] eqn:Ek; [|eexists; reflexivity].
  assert (Hne : key0 <> key). { intros ->. rewrite Ep in Hu. cbn [fst] in Hu. congruence. }
  destruct Hin as [[= -> ->]|Hin]; [congruence|].
  destruct s as [s|].
  - apply (IH _ _ _ key v Hin Hu).
  - apply (IH _ _ _ key v Hin). rewrite dget_dset.
    destruct (String.eqb k (fst (partition key))) eqn:E; [|exact Hu]. apply String.eqb_eq in E. congruence.
Qed.
Theorem C240_unknown_partial : forall f h id ps r key v, goods h -> distinct h -> get_params (S f) h true id = Ok r ->
  In (key, v) ps -> ~ In (fst (partition key)) (ob_params (h id)) ->
  exists h', set_params (S f) h id ps = (h', Err ValueError) /\ (forall i, i <> id -> h' i = h i) /\ (ps = [(key, v)] -> h' = h).
Proof.
  intros f h id ps r key v HG HD H Hin Hun. destruct ps as [|kv ps]; [destruct Hin|]. rewrite set_params_cons, H.
  assert (Hu : dget r (fst (partition key)) = None).
  { destruct (dget r (fst (partition key))) as [w|] eqn:E; [|reflexivity]. exfalso.
    apply (proj2 (C238_entries _ h id r HG HD H)) in E. destruct E as (p & Ep & Hp).
    assert (Hfst : fst (partition (fst (partition key))) = fst (partition key)).
    { clear. destruct (partition key) as [a b] eqn:E. cbn [fst].
      assert (G : forall s a b, partition s = (a, b) -> partition a = (a, None)).
      { induction s as [|c t IH]; intros x y Hs; [injection Hs as <- _; reflexivity|]. rewrite partition_cons in Hs.
        destruct t as [|c2 t2]; [injection Hs as <- _; reflexivity|]. destruct (Ascii.eqb c "_" && Ascii.eqb c2 "_")%bool eqn:E2; [injection Hs as <- _; reflexivity|].
        destruct (partition (String c2 t2)) as [x1 y1] eqn:E3. injection Hs as <- <-. specialize (IH x1 y1 eq_refl).
        rewrite partition_cons. rewrite partition_cons in E3. destruct x1 as [|c3 x1]; [reflexivity|].
        assert (c3 = c2). { destruct t2 as [|c4 t4]; [injection E3 as -> _; reflexivity|]. destruct (Ascii.eqb c2 "_" && Ascii.eqb c4 "_")%bool; [discriminate|].
          destruct (partition (String c4 t4)). injection E3 as -> _. reflexivity. }
        subst c3. rewrite E2, IH. reflexivity. }
      rewrite (G _ _ _ E). reflexivity. }
    apply Hun. rewrite <- Hfst. rewrite Ep. destruct Hp as [id k w Hk _|id k j p w Hk _ Hp].
    - cbn [join]. rewrite (partition_good k (HG id k Hk)). exact Hk.
    - rewrite (join_cons h j p w k Hp), (partition_good_sub k _ (HG id k Hk)). exact Hk. }
  destruct (set_loop_unknown id (kv :: ps) r [] h key v Hin Hu) as [h' E]. rewrite E.
  exists h'. split; [reflexivity|]. split; [exact (set_loop_other _ _ _ _ _ _ _ E)|].
  intros [= -> ->]. cbn [set_loop] in E. destruct (partition key) as [k s]. cbn [fst] in Hu. rewrite Hu in E. injection E as <-. reflexivity.
Qed.

(** C240: and the same for an unknown name below a sub-object, at any depth *)
Lemma join_app1 : forall (p : list string) s, p <> [] -> join (p ++ [s]) = (join p ++ "__" ++ s)%string.
Proof.
  induction p as [|k p IH]; intros s Hp; [congruence|]. destruct p as [|k2 p]; [reflexivity|].
  change (join ((k :: k2 :: p) ++ [s])) with (k ++ "__" ++ join ((k2 :: p) ++ [s]))%string. rewrite IH by discriminate.
  change (join (k :: k2 :: p)) with (k ++ "__" ++ join (k2 :: p))%string.
  generalize (join (k2 :: p)). intros t. clear. induction k as [|c k IHk]; [reflexivity|]. cbn [append] in *. rewrite IHk. reflexivity.
Qed.
Theorem C240_nested_unknown_partial : forall h, goods h -> distinct h -> forall p f id r j s v,
  get_params (S f) h true id = Ok r -> at_path h id p (Ref j) -> ~ In (fst (partition s)) (ob_params (h j)) ->
  set_params (S f) h id [(join (p ++ [s]), v)] = (h, Err ValueError).
Proof.
  intros h HG HD p. induction p as [|k p IH]; intros f id r j s v H Hp Hs; [inversion Hp|].
  assert (Hin : In k (ob_params (h id))) by (inversion Hp; assumption).
  assert (Gk := HG id k Hin).
  inversion Hp as [? ? ? _ Ha|? ? j2 ? ? _ Ha Hp']; subst.
  - assert (Hrk : dget r k = Some (Ref j)).
    { apply (proj2 (C238_entries (S f) h id r HG HD H)). exists [k]. split; [reflexivity|]. apply at_here; assumption. }
    rewrite set_params_cons, H. cbn [app join set_loop]. rewrite (partition_good_sub k _ Gk), Hrk. cbn [dget dset nest_loop]. rewrite Hrk.
    destruct (get_sub f h id r k j HG HD H Hin Ha) as [items Ei]. destruct f as [|f]; [discriminate|].
    destruct (C240_unknown_partial f h j [(s, v)] items s v HG HD Ei (or_introl eq_refl) Hs) as (h' & E & _ & Eh). rewrite E, (Eh eq_refl). reflexivity.
  - assert (Hrk : dget r k = Some (Ref j2)).
    { apply (proj2 (C238_entries (S f) h id r HG HD H)). exists [k]. split; [reflexivity|]. apply at_here; assumption. }
    rewrite set_params_cons, H. cbn [app].
    assert (Hj : join (k :: p ++ [s]) = (k ++ "__" ++ join (p ++ [s]))%string) by (destruct p; [inversion Hp'|reflexivity]).
    rewrite Hj. cbn [set_loop]. rewrite (partition_good_sub k _ Gk), Hrk. cbn [dget dset nest_loop]. rewrite Hrk.
    destruct (get_sub f h id r k j2 HG HD H Hin Ha) as [items Ei]. destruct f as [|f]; [discriminate|].
    rewrite (IH f j2 items j s v Ei Hp' Hs). reflexivity.
Qed.

(** C239: giving get_params back to set_params changes nothing *)
Lemma get_params_ext : forall fuel h1 h deep id, (forall i, h1 i = h i) -> get_params fuel h1 deep id = get_params fuel h deep id.
Proof.
  induction fuel as [|fuel IH]; intros h1 h deep id He; [reflexivity|]. rewrite !get_params_loop, He.
  generalize (@nil (string * value)). generalize (ob_params (h id)). induction l as [|k ks IHk]; intros out; [reflexivity|].
  cbn [loop]. rewrite He. destruct (dget (ob_attrs (h id)) k) as [v|]; [|reflexivity]. destruct deep; [|apply IHk].
  destruct v as [n|j]; [apply IHk|]. rewrite (IH h1 h true j He). destruct (get_params fuel h true j); [|reflexivity]. cbn [bind]. apply IHk.
Qed.
Lemma dset_dset : forall {V} (d : list (string * V)) k g g', dset (dset d k g) k g' = dset d k g'.
Proof.
  intros V d k g g'. induction d as [|[i w] d IHn]; cbn [dset].
  - rewrite String.eqb_refl. reflexivity.
  - destruct (String.eqb i k) eqn:E; cbn [dset]; rewrite E; [reflexivity|]. rewrite IHn. reflexivity.
Qed.
Lemma set_loop_group : forall id k items rest valid nested g h, good k -> dget valid k <> None -> dget nested k = Some g ->
  NoDup (map fst (g ++ items)) ->
  set_loop id (pre k items ++ rest) valid nested h = set_loop id rest valid (dset nested k (g ++ items)) h.
Proof.
  intros id k. induction items as [|[s v] items IH]; intros rest valid nested g h G Hv Hn Hd.
  - cbn [pre map app]. rewrite app_nil_r, dset_same by exact Hn. reflexivity.
  - cbn [pre map app fst snd set_loop]. rewrite (partition_good_sub k s G). destruct (dget valid k) as [u|] eqn:Eu; [|congruence]. rewrite Hn.
    assert (Hs : dset g s v = g ++ [(s, v)]).
    { apply dset_fresh. apply dget_notin. intros Hin. rewrite map_app in Hd. cbn [map fst] in Hd. apply NoDup_remove_2 in Hd. apply Hd.
      apply in_or_app. left. exact Hin. }
    rewrite Hs. fold (pre k items). rewrite (IH rest valid _ (g ++ [(s, v)]) h G).
    + rewrite <- app_assoc. cbn [app]. f_equal. clear. induction nested as [|[i w] nested IHn]; cbn [dset].
      * rewrite String.eqb_refl. reflexivity.
      * destruct (String.eqb i k) eqn:E; cbn [dset]; rewrite E; [reflexivity|]. rewrite IHn. reflexivity.
    + congruence.
    + rewrite dget_dset, String.eqb_refl. reflexivity.
    + rewrite <- app_assoc. exact Hd.
Qed.
Lemma set_loop_block : forall id k items rest valid nested h, good k -> dget valid k <> None -> dget nested k = None ->
  NoDup (map fst items) ->
  set_loop id (pre k items ++ rest) valid nested h
  = set_loop id rest valid (match items with [] => nested | _ => nested ++ [(k, items)] end) h.
Proof.
  intros id k items rest valid nested h G Hv Hn Hd. destruct items as [|[s v] items]; [reflexivity|].
  cbn [pre map app fst snd set_loop]. rewrite (partition_good_sub k s G). destruct (dget valid k) as [u|] eqn:Eu; [|congruence]. rewrite Hn.
  cbn [dset]. fold (pre k items). rewrite (set_loop_group id k items rest valid _ [(s, v)] h G).
  - rewrite dset_dset. rewrite (dset_fresh nested k ([(s, v)] ++ items) Hn). reflexivity.
  - congruence.
  - rewrite dget_dset, String.eqb_refl. reflexivity.
  - exact Hd.
Qed.
Definition groups (f : nat) (h : heap) (id : nat) (ks : list string) : list (string * list (string * value)) :=
  flat_map (fun k => match dget (ob_attrs (h id)) k with
                     | Some (Ref j) => match get_params f h true j with Ok (x :: l) => [(k, x :: l)] | _ => [] end
                     | _ => []
                     end) ks.
Lemma setattr_same : forall (h1 h : heap) id k v, (forall i, h1 i = h i) -> dget (ob_attrs (h id)) k = Some v -> forall i, setattr h1 id k v i = h i.
Proof.
  intros h1 h id k v He Ha i. unfold setattr. destruct (Nat.eqb i id) eqn:E; [|apply He]. apply Nat.eqb_eq in E. subst i.
  rewrite He, dset_same by exact Ha. destruct (h id); reflexivity.
Qed.
Lemma set_loop_all : forall f h id r, goods h -> distinct h -> (forall k, In k (ob_params (h id)) -> ok_param f h id k) ->
  (forall k, In k (ob_params (h id)) -> dget r k = dget (ob_attrs (h id)) k) ->
  forall ks nested (h1 : heap), (forall k, In k ks -> In k (ob_params (h id))) -> NoDup ks -> (forall k, In k ks -> dget nested k = None) ->
  (forall i, h1 i = h i) ->
  exists h2, set_loop id (flat_map (block f h id) ks) r nested h1 = (h2, Ok (r, nested ++ groups f h id ks)) /\ forall i, h2 i = h i.
Proof.
  intros f h id r HG HD Hok Hr. induction ks as [|k ks IH]; intros nested h1 Hks Hnd Hn He.
  - exists h1. cbn. rewrite app_nil_r. split; [reflexivity|exact He].
  - assert (Hk := Hks k (or_introl eq_refl)). assert (Gk := HG id k Hk). apply NoDup_cons_iff in Hnd. destruct Hnd as [Hkk Hnd].
    assert (Ho := Hok k Hk). assert (Hrk := Hr k Hk). unfold ok_param in Ho. cbn [flat_map groups]. unfold block at 1.
    fold (groups f h id ks). unfold groups at 1. cbn [flat_map]. fold (groups f h id ks).
    destruct (dget (ob_attrs (h id)) k) as [[n|j]|] eqn:Ea; [| |destruct Ho].
    + cbn [app set_loop]. rewrite (partition_good k Gk), Hrk. rewrite dset_same by exact Hrk.
      apply IH; [intros k' Hk'; apply Hks; right; exact Hk'|exact Hnd|intros k' Hk'; apply Hn; right; exact Hk'|].
      apply setattr_same; assumption.
    + destruct Ho as [items Ei]. rewrite Ei. rewrite <- app_assoc.
      rewrite set_loop_block; [|exact Gk|congruence|apply Hn; left; reflexivity|exact (get_params_nodup f h HG HD j items Ei)].
      cbn [app set_loop]. rewrite (partition_good k Gk), Hrk. rewrite dset_same by exact Hrk.
      destruct (IH (match items with [] => nested | _ => nested ++ [(k, items)] end) (setattr h1 id k (Ref j))) as (h2 & E & He2).
      * intros k' Hk'. apply Hks. right. exact Hk'.
      * exact Hnd.
      * intros k' Hk'. destruct items as [|x l]; [apply Hn; right; exact Hk'|]. rewrite dget_app, (Hn k' (or_intror Hk')). cbn [dget].
        destruct (String.eqb k k') eqn:E; [|reflexivity]. apply String.eqb_eq in E. subst. exfalso. exact (Hkk Hk').
      * apply setattr_same; assumption.
      * exists h2. split; [|exact He2]. destruct items as [|x l].
        -- exact E.
        -- rewrite <- app_assoc in E. exact E.
Qed.
Theorem C239_round_trip : forall f h id r, goods h -> distinct h -> get_params f h true id = Ok r ->
  exists h', set_params f h id r = (h', Ok tt) /\ forall i, h' i = h i.
Proof.
  intros f h id r HG HD H.
  assert (Hmain : forall f id r, get_params f h true id = Ok r -> forall h1 : heap, (forall i, h1 i = h i) ->
    exists h2, set_params f h1 id r = (h2, Ok tt) /\ forall i, h2 i = h i); [|exact (Hmain f id r H h (fun _ => eq_refl))].
  clear f id r H. induction f as [|f IH]; intros id r H h1 He; [discriminate|].
  destruct (get_params_blocks f h id r HG HD H (get_params_nodup f h HG HD)) as [Er Hok].
  assert (Hr : forall k, In k (ob_params (h id)) -> dget r k = dget (ob_attrs (h id)) k).
  { intros k Hk. specialize (Hok k Hk). unfold ok_param in Hok. destruct (dget (ob_attrs (h id)) k) as [v|] eqn:Ea; [|destruct Hok].
    apply (proj2 (C238_entries _ h id r HG HD H)). exists [k]. split; [reflexivity|]. apply at_here; assumption. }
  destruct (set_loop_all f h id r HG HD Hok Hr (ob_params (h id)) [] h1 (fun k Hk => Hk) (HD id) (fun k _ => eq_refl) He) as (h2 & E & He2).
  destruct r as [|kv r']; [exists h1; split; [reflexivity|exact He]|]. rewrite set_params_cons.
  rewrite (get_params_ext (S f) h1 h true id He), H. rewrite <- Er in E. rewrite E. cbn [app].
  assert (Hg : forall ks (h2 : heap), (forall k, In k ks -> In k (ob_params (h id))) -> (forall i, h2 i = h i) ->
    exists h3, nest_loop (set_params f) (kv :: r') (groups f h id ks) h2 = (h3, Ok tt) /\ forall i, h3 i = h i).
  { clear h1 He h2 E He2. induction ks as [|k ks IHk]; intros h2 Hks He2; [exists h2; split; [reflexivity|exact He2]|].
    unfold groups. cbn [flat_map]. fold (groups f h id ks).
    assert (Hrk := Hr k (Hks k (or_introl eq_refl))).
    assert (Hks' : forall k', In k' ks -> In k' (ob_params (h id))) by (intros k' Hk'; apply Hks; right; exact Hk').
    destruct (dget (ob_attrs (h id)) k) as [[n|j]|] eqn:Ea; [exact (IHk h2 Hks' He2)| |exact (IHk h2 Hks' He2)].
    destruct (get_params f h true j) as [[|x l]|e] eqn:Ei; [exact (IHk h2 Hks' He2)| |exact (IHk h2 Hks' He2)].
    cbn [app nest_loop]. rewrite Hrk. destruct (IH j (x :: l) Ei h2 He2) as (h3 & E3 & He3). rewrite E3. exact (IHk h3 Hks' He3). }
  exact (Hg (ob_params (h id)) h2 (fun k Hk => Hk) He2).
Qed.

(** C240: a ValueError does not leave the estimator as it was; and an unknown name of a sub-object is found only after the others were
    assigned *)
Definition toy_heap : heap := fun i =>
  match i with
  | 0 => mkO ["alpha"; "model"] [("alpha", Atom 1); ("model", Ref 1)]
  | 1 => mkO ["depth"] [("depth", Atom 5)]
  | 2 => mkO ["model"] [("model", Ref 1)]
  | 3 => mkO ["depth"] [("depth", Atom 1)]
  | _ => mkO [] []
  end.
Theorem C240_atomic_refuted : exists h id ps h', set_params 5 h id ps = (h', Err ValueError) /\ h' id <> h id.
Proof. exists toy_heap, 0, [("alpha", Atom 2); ("beta", Atom 3)]. eexists. split; [reflexivity|]. cbn. discriminate. Qed.
(** C240: objects that share a sub-object share its parameters: setting one of the first object changes get_params of the second *)
Theorem C240_shared_refuted : exists h id id2 key v h' r r', id <> id2 /\ set_params 5 h id [(key, v)] = (h', Ok tt) /\
  get_params 5 h true id2 = Ok r /\ get_params 5 h' true id2 = Ok r' /\ r <> r'.
Proof.
  exists toy_heap, 0, 2, "model__depth", (Atom 9). do 3 eexists. split; [discriminate|]. split; [reflexivity|]. split; [reflexivity|].
  split; [reflexivity|]. discriminate.
Qed.
(** the hypotheses of C238-C240 are met *)
Example toy_get : get_params 5 toy_heap true 0 = Ok [("alpha", Atom 1); ("model__depth", Atom 5); ("model", Ref 1)].
Proof. reflexivity. Qed.
Example toy_goods : goods toy_heap /\ distinct toy_heap /\ complete toy_heap /\ acyclic toy_heap (fun i => match i with 1 => 0 | 0 => 1 | 2 => 1 | _ => 0 end).
Proof.
  split; [|split; [|split]].
  - intros [|[|[|[|i]]]] k; cbn; intros H; repeat destruct H as [<-|H]; try destruct H; reflexivity.
  - intros [|[|[|[|i]]]]; cbn; repeat constructor; cbn; intuition discriminate.
  - intros [|[|[|[|i]]]] k; cbn; intros H; repeat destruct H as [<-|H]; try destruct H; discriminate.
  - intros [|[|[|[|i]]]] k j; cbn; intros H; repeat destruct H as [<-|H]; try destruct H; intros E; try discriminate; injection E as <-; lia.
Qed.
Example toy_replace : exists h', set_params 5 toy_heap 0 [("model__depth", Atom 7); ("model", Ref 3)] = (h', Ok tt) /\
  get_params 5 h' true 0 = Ok [("alpha", Atom 1); ("model__depth", Atom 7); ("model", Ref 3)] /\ ob_attrs (h' 1) = [("depth", Atom 5)].
Proof. eexists. split; [reflexivity|]. split; reflexivity. Qed.

Example toy_nested_unknown : at_path toy_heap 0 ["model"] (Ref 1) /\ ~ In (fst (partition "width")) (ob_params (toy_heap 1)) /\
  set_params 5 toy_heap 0 [("model__width", Atom 7)] = (toy_heap, Err ValueError).
Proof. split; [apply at_here; cbn; auto|]. split; [cbn; intuition discriminate|reflexivity]. Qed.

(** C241: which estimators have get_params and set_params.  For whatever arguments, clones and defaults *)
Definition readable (c : cls) : bool :=
  match c with
  | CDoubleML | CDoublyRobust | CGRForest | CCTCausalForest | CCausalTree | CGrfTree | CApproxBound | CNP2SLS | CRLoss | CPermutedLearner => true
  | _ => false
  end.
Lemma construct_get : forall l given cl dv own isn k, NoDup (map fst l) -> In k (map fst l) ->
  (In (k, Gone) l -> dget (List.concat (map (attr_of given cl dv own isn) l)) k = None) /\
  (In (k, Arg) l -> dget (List.concat (map (attr_of given cl dv own isn) l)) k = Some (given k)) /\
  (In (k, Own) l -> dget (List.concat (map (attr_of given cl dv own isn) l)) k = Some (own k)) /\
  (In (k, Dflt) l -> dget (List.concat (map (attr_of given cl dv own isn) l)) k = Some (if isn (given k) then dv k else given k)) /\
  (In (k, Cloned) l -> dget (List.concat (map (attr_of given cl dv own isn) l)) k = Some (cl k)).
Proof.
  induction l as [|[k0 s0] l IH]; intros given cl dv own isn k Hn Hk; [destruct Hk|]. cbn [map fst] in Hn. apply NoDup_cons_iff in Hn.
  destruct Hn as [H0 Hn]. cbn [map List.concat]. rewrite dget_app.
  destruct (String.eqb k0 k) eqn:E.
  - apply String.eqb_eq in E. subst k0.
    assert (Hno : dget (List.concat (map (attr_of given cl dv own isn) l)) k = None).
    { apply dget_notin. intros Hin. apply H0. apply in_map_iff in Hin. destruct Hin as ((k1 & v1) & E1 & Hin). cbn [fst] in E1. subst k1.
      apply in_concat in Hin. destruct Hin as (x & Hx & Hin). apply in_map_iff in Hx. destruct Hx as ((k2 & s2) & <- & Hx).
      assert (k2 = k) by (destruct s2; cbn in Hin; try destruct Hin as [Hin|Hin]; try contradiction; congruence). subst k2.
      apply in_map_iff. exists (k, s2). split; [reflexivity|exact Hx]. }
    assert (Hone : forall s1, In (k, s1) ((k, s0) :: l) -> s1 = s0).
    { intros s1 [[= <-]|Hin]; [reflexivity|]. exfalso. apply H0. apply in_map_iff. exists (k, s1). split; [reflexivity|exact Hin]. }
    repeat split; intros Hin; apply Hone in Hin; subst s0; cbn [attr_of fst snd dget]; rewrite ?String.eqb_refl; try reflexivity. exact Hno.
  - assert (Hnone : dget (attr_of given cl dv own isn (k0, s0)) k = None).
    { destruct s0; cbn [attr_of fst snd dget]; rewrite ?E; reflexivity. }
    rewrite Hnone. destruct Hk as [Hk|Hk]; [cbn in Hk; subst; rewrite String.eqb_refl in E; discriminate|].
    destruct (IH given cl dv own isn k Hn Hk) as (I1 & I2 & I3 & I4 & I5).
    assert (Hin2 : forall s1, In (k, s1) ((k0, s0) :: l) -> In (k, s1) l).
    { intros s1 [[= -> ->]|Hin]; [rewrite String.eqb_refl in E; discriminate|exact Hin]. }
    repeat split; intros Hin; apply Hin2 in Hin; auto.
Qed.
Lemma ctor_distinct : forall c, NoDup (map fst (ctor c)).
Proof.
  intros c. assert (H : nodup string_dec (map fst (ctor c)) = map fst (ctor c)) by (destruct c; vm_compute; reflexivity).
  rewrite <- H. apply NoDup_nodup.
Qed.
Definition no_gone (c : cls) : bool := forallb (fun p => match snd p with Gone => false | _ => true end) (ctor c).
Lemma readable_no_gone : forall c, readable c = no_gone c.
Proof. destruct c; reflexivity. Qed.

(** S-, T- and X-learners, CausalForest, DeepIV and the permuted learners (other than PermutedLearner itself) have an argument that is
    no attribute: get_params and set_params of anything always fail *)
Theorem C241_unreadable_refuted : forall c, readable c = false -> forall given cl dv own isn (h : heap) id,
  h id = construct c given cl dv own isn -> (forall fuel deep r, get_params fuel h deep id <> Ok r) /\
  (forall fuel ps h', ps <> [] -> set_params fuel h id ps <> (h', Ok tt)).
Proof.
  intros c Hc given cl dv own isn h id Hh.
  assert (Hg : forall fuel deep r, get_params fuel h deep id <> Ok r).
  { rewrite readable_no_gone in Hc. unfold no_gone in Hc. rewrite <- Bool.not_true_iff_false, forallb_forall in Hc.
    assert (He : exists k, In (k, Gone) (ctor c)).
    { destruct (existsb (fun p => match snd p with Gone => true | _ => false end) (ctor c)) eqn:E.
      - apply existsb_exists in E. destruct E as ((k & s0) & Hin & E). destruct s0; try discriminate. exists k. exact Hin.
      - exfalso. apply Hc. intros (k & s0) Hin. destruct s0; try reflexivity. exfalso.
        rewrite <- Bool.not_true_iff_false, existsb_exists in E. apply E. exists (k, Gone). split; [exact Hin|reflexivity]. }
    destruct He as [k Hk]. intros fuel deep r. apply (C238_missing fuel h deep id k); rewrite Hh; cbn [ob_params ob_attrs construct].
    - exact (in_map fst _ _ Hk).
    - apply (construct_get (ctor c) given cl dv own isn k (ctor_distinct c) (in_map fst _ _ Hk)). exact Hk. }
  split; [exact Hg|]. intros fuel ps h' Hps H. destruct ps as [|kv ps]; [congruence|]. destruct fuel as [|f]; [discriminate|].
  rewrite set_params_cons in H. destruct (get_params (S f) h true id) as [r|e] eqn:E; [exact (Hg _ _ _ E)|discriminate].
Qed.
(** the others answer with their arguments *)
Theorem C241_readable : forall c, readable c = true -> forall given cl dv own isn (h : heap) id fuel,
  h id = construct c given cl dv own isn ->
  exists r, get_params (S fuel) h false id = Ok r /\ map fst r = map fst (ctor c) /\
    (forall k, In (k, Arg) (ctor c) -> dget r k = Some (given k)) /\
    (forall k, In (k, Cloned) (ctor c) -> dget r k = Some (cl k)).
Proof.
  intros c Hc given cl dv own isn h id fuel Hh.
  assert (Hex : exists r, get_params (S fuel) h false id = Ok r).
  { rewrite get_params_loop, Hh. cbn [construct ob_params]. generalize (@nil (string * value)).
    assert (Hall : forall k, In k (map fst (ctor c)) -> exists v, dget (ob_attrs (construct c given cl dv own isn)) k = Some v).
    { intros k Hk. rewrite readable_no_gone in Hc. unfold no_gone in Hc. rewrite forallb_forall in Hc.
      apply in_map_iff in Hk. destruct Hk as ((k1 & s1) & <- & Hin). specialize (Hc _ Hin). cbn [snd fst] in *.
      destruct (construct_get (ctor c) given cl dv own isn k1 (ctor_distinct c) (in_map fst _ _ Hin)) as (_ & I2 & I3 & I4 & I5).
      destruct s1; [exact (ex_intro _ _ (I2 Hin))|exact (ex_intro _ _ (I5 Hin))|exact (ex_intro _ _ (I4 Hin))|exact (ex_intro _ _ (I3 Hin))|discriminate]. }
    induction (map fst (ctor c)) as [|k ks IH]; intros out; [eexists; reflexivity|]. cbn [loop]. rewrite Hh.
    destruct (Hall k (or_introl eq_refl)) as [v E]. rewrite E. apply IH. intros k' Hk'. apply Hall. right. exact Hk'. }
  destruct Hex as [r Hr]. exists r. split; [exact Hr|].
  assert (Hl : map fst r = ob_params (h id) /\ forall k, In k (ob_params (h id)) -> dget r k = dget (ob_attrs (h id)) k).
  { set (h1 := fun i => if Nat.eqb i id then h id else mkO [] []).
    assert (Hr1 : get_params (S fuel) h1 false id = Ok r).
    { rewrite get_params_loop in *. unfold h1 at 2. rewrite Nat.eqb_refl. revert Hr. generalize (@nil (string * value)).
      induction (ob_params (h id)) as [|k ks IHk]; intros out Hr; [exact Hr|]. cbn [loop] in *. unfold h1 at 1. rewrite Nat.eqb_refl.
      destruct (dget (ob_attrs (h id)) k); [|discriminate]. exact (IHk _ Hr). }
    assert (HD1 : distinct h1).
    { intros i. unfold h1. destruct (Nat.eqb i id); [rewrite Hh; apply ctor_distinct|constructor]. }
    destruct (C238_shallow fuel h1 id r HD1 Hr1) as [A B]. unfold h1 in A, B. rewrite Nat.eqb_refl in A, B. split; [exact A|].
    intros k Hk. apply B. exact Hk. }
  destruct Hl as [Hl1 Hl2]. rewrite Hh in Hl1, Hl2. cbn [construct ob_params] in Hl1, Hl2. split; [exact Hl1|].
  split; intros k Hk; (rewrite Hl2; [|exact (in_map fst _ _ Hk)]);
    destruct (construct_get (ctor c) given cl dv own isn k (ctor_distinct c) (in_map fst _ _ Hk)) as (_ & I2 & _ & _ & I5); auto.
Qed.
(** C241: and these do not: NP2SLS shows categories of its own ('auto': the argument goes to _is_fitted, iv.py:89-91 and
    base_models.py:24-33), the forests a random_state of their own (2022) *)
Theorem C241_lost_refuted : forall c k, (c = CNP2SLS /\ k = "categories") \/ ((c = CGRForest \/ c = CCTCausalForest) /\ k = "random_state") ->
  forall given given' cl dv own isn, dget (ob_attrs (construct c given cl dv own isn)) k = dget (ob_attrs (construct c given' cl dv own isn)) k.
Proof.
  intros c k Hck given given' cl dv own isn.
  assert (Hin : In (k, Own) (ctor c)) by (destruct Hck as [[-> ->]|[[->| ->] ->]]; cbn; tauto).
  destruct (construct_get (ctor c) given cl dv own isn k (ctor_distinct c) (in_map fst _ _ Hin)) as (_ & _ & I3 & _).
  destruct (construct_get (ctor c) given' cl dv own isn k (ctor_distinct c) (in_map fst _ _ Hin)) as (_ & _ & I3' & _).
  unfold construct. cbn [ob_attrs]. rewrite (I3 Hin), (I3' Hin). reflexivity.
Qed.

Print Assumptions C238_entries.
Print Assumptions C238_shallow.
Print Assumptions C238_missing.
Print Assumptions C238_total.
Print Assumptions C239_single.
Print Assumptions C239_set_then_get.
Print Assumptions C239_replace.
Print Assumptions C240_unknown_partial.
Print Assumptions C240_nested_unknown_partial.
Print Assumptions C239_round_trip.
Print Assumptions C240_atomic_refuted.
Print Assumptions C240_shared_refuted.
Print Assumptions C241_unreadable_refuted.
Print Assumptions C241_readable.
Print Assumptions C241_lost_refuted.
