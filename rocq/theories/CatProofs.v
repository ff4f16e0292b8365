From Coq Require Import Reals String.
From Verif Require Import Base CleanModel ParamModel ParamProofs CatModel CatSpec.
Ltac Zify.zify_post_hook ::= idtac.
Local Notation length := List.length.
Section Cat.
Context {S : Type}.
Variable src_name : S -> string.
Notation put := (put src_name).
Notation add_srcs := (add_srcs src_name).
Definition over (k : string) (found : option S) (e : string * option S) : option S := if String.eqb k (fst e) then snd e else found.
Definition ev (s : S) : string * option S := (src_name s, Some s).
Lemma fold_put k l : forall c, lookup k (fold_left put l c) = fold_left (over k) (map ev l) (lookup k c).
Proof.
  induction l as [|s l IH]; intros c; cbn [fold_left map]; auto. rewrite IH. f_equal. unfold CatModel.put, over, ev. cbn [fst snd]. rewrite lookup_dset. auto.
Qed.
Definition one_events := fix go (args : list (aarg (S := S))) : list (string * option S) := match args with One s :: r => (src_name s, Some s) :: go r | _ => [] end.
Lemma add_each_lookup k args : forall c, lookup k (fst (add_each src_name c args)) = fold_left (over k) (one_events args) (lookup k c).
Proof.
  induction args as [|[s|l|] args IH]; intros c; cbn [add_each one_events fst fold_left]; auto. rewrite IH. f_equal. unfold CatModel.put, over. cbn [fst snd]. apply lookup_dset.
Qed.
Lemma one_events_many l : one_events (map One l) = map ev l.
Proof. induction l as [|s l IH]; cbn [map one_events]; auto. rewrite IH. auto. Qed.
Lemma dremove_lookup k k' (c : dict S) : NoDup (map fst c) -> lookup k (dremove k' c) = if String.eqb k k' then None else lookup k c.
Proof.
  induction c as [|[k2 v] c IH]; cbn [dremove lookup map fst]; intros N; [destruct (String.eqb k k'); auto|]. inversion N; subst. destruct (String.eqb_spec k' k2).
  - subst. destruct (String.eqb_spec k k2); auto. subst. apply lookup_none. auto.
  - cbn [lookup]. destruct (String.eqb_spec k k2); [|apply IH; auto]. subst. destruct (String.eqb_spec k2 k'); congruence.
Qed.
Lemma dset_fst {A} k (v : A) c : map fst (dset k v c) = if existsb (String.eqb k) (map fst c) then map fst c else map fst c ++ [k].
Proof.
  induction c as [|[k2 v2] c IH]; cbn [dset map fst existsb app]; auto. destruct (String.eqb_spec k k2); cbn [map fst orb]; auto. rewrite IH. destruct (existsb _ _); auto.
Qed.
Lemma dset_nodup' {A} k (v : A) c : NoDup (map fst c) -> NoDup (map fst (dset k v c)).
Proof.
  intros N. rewrite dset_fst. destruct (existsb _ _) eqn:E; auto. apply NoDup_rev in N. rewrite <- (rev_involutive (map fst c ++ [k])). apply NoDup_rev. rewrite rev_app_distr. cbn [rev app].
  constructor; auto. rewrite <- in_rev. intros I. rewrite <- not_true_iff_false in E. apply E. apply existsb_exists. exists k. split; [exact I|apply String.eqb_refl].
Qed.
Lemma dremove_nodup k (c : dict S) : NoDup (map fst c) -> NoDup (map fst (dremove k c)).
Proof.
  assert (I : forall x (c : dict S), In x (map fst (dremove k c)) -> In x (map fst c)).
  { intros x. induction c0 as [|[k2 v] c0 IH]; cbn [dremove map fst]; auto. destruct (String.eqb k k2); cbn; tauto. }
  induction c as [|[k2 v] c IH]; cbn [dremove map fst]; auto. intros N. inversion N; subst. destruct (String.eqb k k2); auto. cbn [map fst]. constructor; auto.
Qed.
Lemma fold_put_nodup l : forall c, NoDup (map fst c) -> NoDup (map fst (fold_left put l c)).
Proof. induction l as [|s l IH]; intros c N; cbn [fold_left]; auto. apply IH. apply dset_nodup'. auto. Qed.
Lemma step_nodup c o : NoDup (map fst c) -> NoDup (map fst (step src_name c o)).
Proof.
  intros N. unfold step. destruct o as [args|k s|k].
  - assert (G : forall a c, NoDup (map fst c) -> NoDup (map fst (fst (add_each src_name c a)))).
    { induction a as [|[s|l|] a IH]; intros c' N'; cbn [add_each fst]; auto. apply IH. apply dset_nodup'. auto. }
    unfold CatModel.add_srcs. destruct args as [|[s|l|] [|b args]]; try (apply G; auto); cbn [fst]; auto. apply fold_put_nodup. auto.
  - cbn [setitem fst]. apply dset_nodup'. auto.
  - unfold delitem. destruct (lookup k c); cbn [fst]; auto. apply dremove_nodup. auto.
Qed.
Lemma step_lookup k c o : NoDup (map fst c) -> lookup k (step src_name c o) = fold_left (over k) (events src_name o) (lookup k c).
Proof.
  intros N. unfold step. destruct o as [args|k' s|k']; cbn [events].
  - fold one_events. unfold CatModel.add_srcs. destruct args as [|[s|l|] [|b args]]; try (rewrite add_each_lookup; reflexivity); cbn [fst]; auto.
    rewrite fold_put, one_events_many. auto.
  - cbn [setitem fst fold_left]. unfold over. cbn [fst snd]. apply lookup_dset.
  - unfold delitem. cbn [fold_left]. unfold over. cbn [fst snd]. destruct (lookup k' c) eqn:E; cbn [fst].
    + apply dremove_lookup. auto.
    + destruct (String.eqb_spec k k'); congruence.
Qed.
Lemma run_inv h : forall c k, NoDup (map fst c) -> NoDup (map fst (fold_left (step src_name) h c)) /\
  lookup k (fold_left (step src_name) h c) = fold_left (over k) (flat_map (events src_name) h) (lookup k c).
Proof.
  induction h as [|o h IH]; intros c k N; cbn [fold_left flat_map]; auto. destruct (IH (step src_name c o) k (step_nodup c o N)) as [A B]. split; auto.
  rewrite B, fold_left_app, step_lookup; auto.
Qed.
Lemma getall_iff (c : dict S) names : forall l, getall c names = Ok l <-> Forall2 (fun n s => lookup n c = Some s) names l.
Proof.
  induction names as [|n names IH]; intros l; cbn [getall].
  - split; [intros [= <-]; constructor | intros F; inversion F; auto].
  - split.
    + destruct (lookup n c) eqn:E; [|discriminate]. destruct (getall c names) eqn:G; [|discriminate]. cbn [bind]. intros [= <-]. constructor; auto. apply IH. auto.
    + intros F. inversion F as [|? ? ? ? HE HF]; subst. rewrite HE. apply IH in HF. rewrite HF. auto.
Qed.
Lemma getall_err (c : dict S) names : getall c names = Err <-> Exists (fun n => lookup n c = None) names.
Proof.
  induction names as [|n names IH]; cbn [getall].
  - split; [discriminate | intros E; inversion E].
  - destruct (lookup n c) eqn:E.
    + destruct (getall c names) eqn:G; cbn [bind].
      * split; [discriminate|]. intros X. inversion X; [congruence|]. apply IH in H0. discriminate.
      * split; auto. intros _. right. apply IH. auto.
    + split; auto.
Qed.
Lemma strs_map names : strs (map Str names) = Ok names.
Proof. induction names as [|n names IH]; cbn [map strs]; auto. rewrite IH. auto. Qed.
Lemma lookup_in_fst {A} k (c : dict A) : In k (map fst c) <-> lookup k c <> None.
Proof.
  split.
  - induction c as [|[k2 v] c IH]; cbn [map fst lookup In]; [tauto|]. destruct (String.eqb_spec k k2); [congruence|]. intros [X|X]; [congruence|auto].
  - intros H. destruct (in_dec string_dec k (map fst c)); auto. rewrite lookup_none in H; congruence.
Qed.
(* catalogues made from the modules *)
Variable flux : S -> R -> R.
Definition keyed (m : dict S) : Prop := forall k s, lookup k m = Some s -> src_name s = k.
Definition names_of (m : dict S) (srcs : option (list (want (S := S)))) (cutoff : option (R * R)) : list string :=
  match srcs with
  | Some l => flat_map (fun w => match w with Named n => [n] | Made _ => [] end) l
  | None => match cutoff with
            | None => keys m
            | Some (cut, fq) => filter (fun n => match lookup n m with Some s => Rltb cut (flux s fq) | None => false end) (keys m)
            end
  end.
Lemma over_module k m names : keyed m -> forall found,
  fold_left (over k) (map ev (flat_map (fun n => match lookup n m with Some s => [s] | None => [] end) names)) found =
  if existsb (String.eqb k) names then match lookup k m with Some s => Some s | None => found end else found.
Proof.
  intros K. induction names as [|n names IH]; intros found; cbn [flat_map existsb map fold_left]; auto. rewrite map_app, fold_left_app.
  destruct (lookup n m) as [s|] eqn:E; cbn [map fold_left].
  - rewrite IH. unfold over, ev. cbn [fst snd]. rewrite (K _ _ E). destruct (String.eqb_spec k n); cbn [orb]; auto. subst n. rewrite E. destruct (existsb _ _); auto.
  - rewrite IH. destruct (String.eqb_spec k n); cbn [orb]; auto. subst n. rewrite E. destruct (existsb _ _); auto.
Qed.
Definition offer (modules : dict (dict S)) (k : string) srcs cutoff (c : string) : option S :=
  match lookup c modules with Some m => if existsb (String.eqb k) (names_of m srcs cutoff) then lookup k m else None | None => None end.
Lemma over_modules modules k srcs cutoff : (forall c m, lookup c modules = Some m -> keyed m) -> forall cats found,
  fold_left (over k) (map ev (flat_map (fun c => match lookup c modules with Some m => module_srcs flux m srcs cutoff | None => [] end) cats)) found =
  fold_left (fun a o => match o with Some s => Some s | None => a end) (map (offer modules k srcs cutoff) cats) found.
Proof.
  intros K. induction cats as [|c cats IH]; intros found; cbn [flat_map map fold_left]; auto. rewrite map_app, fold_left_app, IH. f_equal. unfold offer.
  destruct (lookup c modules) as [m|] eqn:E; [|reflexivity]. unfold module_srcs. cbv zeta. fold (names_of m srcs cutoff). rewrite over_module by eauto. destruct (existsb _ _); auto.
Qed.
Definition made (srcs : option (list (want (S := S)))) : list S := match srcs with Some l => flat_map (fun w => match w with Made s => [s] | Named _ => [] end) l | None => [] end.
Lemma catalog_lookup modules k srcs cutoff cats : (forall c m, lookup c modules = Some m -> keyed m) ->
  lookup k (get_catalog src_name flux modules srcs cutoff cats) =
  fold_left (over k) (map ev (made srcs)) (last_some (map (offer modules k srcs cutoff) cats)).
Proof.
  intros K. unfold get_catalog, CatModel.add_srcs. cbv zeta. cbn [fst]. rewrite fold_put, map_app, fold_left_app, over_modules by auto. fold (made srcs). reflexivity.
Qed.
End Cat.
