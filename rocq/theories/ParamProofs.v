(* Proofs about parameter objects: sources, catalogues, beams. *)
From Verif Require Import Base ParamModel ParamSpec.
From Coq Require Import Ascii String.
Ltac Zify.zify_post_hook ::= idtac.

Lemma lookup_dset {A} k k' (v : A) d : lookup k (dset k' v d) = if String.eqb k k' then Some v else lookup k d.
Proof.
  induction d as [|[k2 v2] d IH]; cbn [dset lookup]; auto.
  destruct (String.eqb_spec k' k2); cbn [lookup].
  - subst. destruct (String.eqb k k2); auto.
  - rewrite IH. destruct (String.eqb_spec k k2), (String.eqb_spec k k'); congruence.
Qed.
Lemma star_false k : (forall t, k <> String "*"%char t) -> star k = false.
Proof.
  intros H. destruct k as [|c t]; auto. cbn [star]. destruct (Ascii.eqb_spec c "*"%char) as [->|]; auto. destruct (H t eq_refl).
Qed.
Lemma choose_one {A} (a : dict A) k : star k = false -> lookup k (choose a [] [k]) = lookup k a.
Proof.
  intros S. cbn [choose]. rewrite S. destruct (lookup k a) as [v|] eqn:E; cbn [dset lookup]; auto.
  rewrite String.eqb_refl. auto.
Qed.
Lemma choose_list {A} (a : dict A) l : Forall (fun k => star k = false) l -> forall prms k,
  lookup k (choose a prms l) = if existsb (String.eqb k) l then match lookup k a with Some v => Some v | None => lookup k prms end
                               else lookup k prms.
Proof.
  induction 1 as [|x l Hx F IH]; intros prms k; cbn [choose existsb]; auto. rewrite Hx, IH.
  destruct (String.eqb_spec k x) as [->|N]; cbn [orb].
  - destruct (lookup x a) as [v|] eqn:E.
    + rewrite lookup_dset, String.eqb_refl. destruct (existsb _ l); auto.
    + destruct (existsb _ l); auto.
  - destruct (lookup x a) as [v|] eqn:E; auto. rewrite lookup_dset. destruct (String.eqb_spec k x); [congruence|]. auto.
Qed.
Lemma choose_star {A} (a : dict A) : choose a [] ["*"%string] = a.
Proof. reflexivity. Qed.

Section S.
Context {F : Type}.
Definition fixed_keys : list string := ["jys"; "index"; "ra"; "dec"; "a1"; "a2"; "th"; "dra"; "ddec"]%string.
Definition special_keys : list string := ["jys"; "index"; "a1"; "a2"; "th"; "dra"; "ddec"]%string.

Lemma fixed_step (s : src F) d k : In k fixed_keys ->
  lookup k (fixed_all (fixed_set s d)) = match lookup k d with Some v => Some v | None => lookup k (fixed_all s) end.
Proof.
  intros H. simpl in H. unfold fixed_all, fixed_set.
  repeat (destruct H as [<-|H]; [cbn -[or_old]; unfold or_old; cbn [s_jys s_index s_ra s_dec s_a1 s_a2 s_th s_dra s_ddec]; match goal with |- context [match lookup ?k d with _ => _ end] => destruct (lookup k d) end; reflexivity|]).
  destruct H.
Qed.
Lemma special_step (s : src F) d k : In k special_keys ->
  lookup k (special_all (special_set s d)) = match lookup k d with Some v => Some v | None => lookup k (special_all s) end.
Proof.
  intros H. simpl in H. unfold special_all, special_set.
  repeat (destruct H as [<-|H]; [cbn -[or_old]; unfold or_old; cbn [s_jys s_index s_ra s_dec s_a1 s_a2 s_th s_dra s_ddec]; match goal with |- context [match lookup ?k d with _ => _ end] => destruct (lookup k d) end; reflexivity|]).
  destruct H.
Qed.
Lemma steps {S} (set_ : S -> dict F -> S) (all : S -> dict F) k :
  (forall s d, lookup k (all (set_ s d)) = match lookup k d with Some v => Some v | None => lookup k (all s) end) ->
  forall ds s, lookup k (all (fold_left set_ ds s)) = last_set k ds (lookup k (all s)).
Proof. intros H. induction ds as [|d ds IH]; intros s; auto. cbn [fold_left]. rewrite IH, H. reflexivity. Qed.

(* catalogues *)
Definition for_src (s : string) (ds : list (dict (dict F))) : list (dict F) :=
  flat_map (fun d => match lookup s d with Some x => [x] | None => [] end) ds.
Lemma lookup_none {A} k (d : dict A) : ~ In k (map fst d) -> lookup k d = None.
Proof.
  induction d as [|[k2 v] d IH]; auto. cbn [map In fst lookup]. intros N.
  destruct (String.eqb_spec k k2); [subst; tauto|]. apply IH. tauto.
Qed.
Lemma cat_set_lookup d : NoDup (map fst d) -> forall (c : catalog F) s,
  lookup s (cat_set c d) = match lookup s c, lookup s d with Some o, Some x => Some (fixed_set o x) | o, _ => o end.
Proof.
  unfold cat_set. induction d as [|[k x] d IH]; intros N c s.
  - cbn [fold_left lookup]. destruct (lookup s c); auto.
  - inversion N; subst. cbn [fold_left fst snd]. rewrite IH by auto. cbn [lookup].
    destruct (String.eqb_spec s k) as [->|NE].
    + rewrite (lookup_none k d) by auto. destruct (lookup k c) as [o|] eqn:E.
      * rewrite lookup_dset, String.eqb_refl. auto.
      * rewrite E. auto.
    + destruct (lookup k c) as [o|] eqn:E; auto. rewrite lookup_dset. destruct (String.eqb_spec s k); [congruence|]. auto.
Qed.
Lemma cat_history ds : Forall (fun d => NoDup (map fst d)) ds -> forall (c : catalog F) s,
  lookup s (fold_left cat_set ds c) = option_map (fun o => fold_left fixed_set (for_src s ds) o) (lookup s c).
Proof.
  induction 1 as [|d ds N H IH]; intros c s; cbn [fold_left for_src flat_map].
  - destruct (lookup s c); auto.
  - rewrite IH, cat_set_lookup by auto. destruct (lookup s c) as [o|]; auto. cbn [option_map].
    rewrite fold_left_app. destruct (lookup s d); reflexivity.
Qed.
Lemma dset_keys {A} k (v : A) d : In k (map fst d) -> map fst (dset k v d) = map fst d.
Proof.
  induction d as [|[k2 v2] d IH]; [intros []|]. cbn [map fst In dset]. destruct (String.eqb_spec k k2); auto.
  intros [E|E]; [congruence|]. cbn [map fst]. rewrite IH; auto.
Qed.
Lemma lookup_in {A} k (v : A) d : lookup k d = Some v -> In k (map fst d).
Proof.
  induction d as [|[k2 v2] d IH]; [discriminate|]. cbn [lookup map fst In]. destruct (String.eqb_spec k k2); auto.
Qed.
Lemma cat_get_all (c : catalog F) : NoDup (map fst c) -> forall s,
  lookup s (cat_get c [("*", ["*"])]%string) = option_map fixed_all (lookup s c).
Proof.
  intros _ s. unfold cat_get. cbn [fold_left fst snd star Ascii.eqb Bool.eqb].
  assert (G : forall l prms, lookup s (fold_left (fun prms s => match lookup s c with Some o => dset s (fixed_get o ["*"%string]) prms | None => prms end) l prms)
     = if existsb (String.eqb s) l then match lookup s c with Some o => Some (fixed_all o) | None => lookup s prms end else lookup s prms).
  { induction l as [|x l IH]; intros prms; auto. cbn [fold_left existsb]. rewrite IH.
    destruct (String.eqb_spec s x) as [->|NE]; cbn [orb].
    - destruct (lookup x c) as [o|] eqn:E; [|destruct (existsb _ l); auto].
      rewrite lookup_dset, String.eqb_refl. destruct (existsb _ l); auto.
    - destruct (lookup x c) as [o|] eqn:E; auto. rewrite lookup_dset. destruct (String.eqb_spec s x); [congruence|]. auto. }
  change (if star "*" then map fst c else ["*"%string]) with (map fst c). rewrite G. cbn [lookup].
  destruct (lookup s c) as [o|] eqn:E; [|destruct (existsb _ _); auto].
  apply lookup_in in E. assert (X : existsb (String.eqb s) (map fst c) = true).
  { apply existsb_exists. exists s. split; auto. apply String.eqb_refl. }
  rewrite X. auto.
Qed.

(* BeamAlm *)
Lemma flat_pairs_flat (l : list (F * F)) : flat_pairs (pairs_flat l) = l.
Proof. induction l as [|[a b] l IH]; auto. cbn. rewrite IH. auto. Qed.
Lemma upd_length {A} (l : list A) i x : List.length (upd l i x) = List.length l.
Proof. revert i. induction l as [|y l IH]; intros [|i]; cbn; auto. Qed.
Lemma nth_upd {A} (l : list A) i j x : nth_error (upd l i x) j = if Nat.eqb i j then (match nth_error l j with Some _ => Some x | None => None end) else nth_error l j.
Proof.
  revert i j. induction l as [|y l IH]; intros [|i] [|j]; auto.
  - cbn. destruct (Nat.eqb i j); auto.
  - cbn [upd nth_error Nat.eqb]. apply IH.
Qed.
(* setting the parameters just read reverses the order of the terms *)
Lemma alm_set_get (b : almbeam F) : alm_set b (alm_get b) = rev b.
Proof.
  unfold alm_get, alm_set.
  assert (G : forall n l (c : almbeam F), (n + List.length l)%nat = List.length c ->
    fold_left (fun b kv => if (fst kv <? List.length b)%nat then upd b (List.length b - 1 - fst kv)%nat (flat_pairs (snd kv)) else b)
      (combine (seq n (List.length l)) (map pairs_flat l)) c = rev l ++ skipn (List.length l) c).
  { intros n l. revert n. induction l as [|x l IH]; intros n c E; auto.
    cbn [List.length seq map combine fold_left fst snd]. cbn [List.length] in E.
    destruct (Nat.ltb_spec n (List.length c)); [|lia]. rewrite IH by (rewrite upd_length; lia).
    rewrite flat_pairs_flat. cbn [rev]. rewrite <- app_assoc. f_equal. 
    replace (List.length c - 1 - n)%nat with (List.length l) by lia.
    assert (L : (List.length l < List.length c)%nat) by lia. clear -L. revert c L. generalize (List.length l) as k.
    induction k as [|k IH]; intros [|y c] L; cbn in L; try lia; auto. cbn [upd skipn app]. rewrite IH by lia. reflexivity. }
  rewrite G by auto. rewrite skipn_all, app_nil_r. auto.
Qed.
Lemma alm_one (b : almbeam F) c l : (c < List.length b)%nat ->
  nth_error (alm_set b [(c, l)]) (List.length b - 1 - c) = Some (flat_pairs l) /\
  forall j, j <> (List.length b - 1 - c)%nat -> nth_error (alm_set b [(c, l)]) j = nth_error b j.
Proof.
  intros L. unfold alm_set. cbn [fold_left fst snd]. destruct (Nat.ltb_spec c (List.length b)); [|lia]. split.
  - rewrite nth_upd, Nat.eqb_refl. destruct (nth_error b _) eqn:E; auto. apply nth_error_None in E. lia.
  - intros j N. rewrite nth_upd. destruct (Nat.eqb_spec (List.length b - 1 - c) j); [congruence|]. auto.
Qed.
End S.
