(* C49: source catalogues return what was put in them. *)
From Coq Require Import Reals String.
From Verif Require Import Base CleanModel ParamModel ParamProofs CatModel CatSpec CatProofs.
Ltac Zify.zify_post_hook ::= idtac.
Local Notation length := List.length.
Section Cat.
Context {S : Type}.
Variable src_name : S -> string.

(* after every history (also one in which calls raised), get_srcs of names gives for each name,
   in the order asked, the object last put under it *)
Theorem C49_get_srcs h names l :
  get_srcs (run src_name h) [Seq names] = Ok (Some l) <-> Forall2 (fun n s => holds src_name h n = Some s) names l.
Proof.
  unfold get_srcs. assert (H : forall n, lookup n (run src_name h) = holds src_name h n).
  { intros n. unfold run, holds, latest. destruct (run_inv src_name h [] n (NoDup_nil _)) as [_ ->]. reflexivity. }
  split.
  - destruct (getall _ names) eqn:E; [|discriminate]. cbn [bind]. intros [= <-]. apply getall_iff in E. clear - E H. induction E; constructor; auto. rewrite <- H. auto.
  - intros F. assert (E : getall (run src_name h) names = Ok l); [|rewrite E; auto]. apply getall_iff. clear - F H. induction F; constructor; auto. rewrite H. auto.
Qed.
(* one name that is not there, and the call raises *)
Theorem C49_unknown h names : get_srcs (run src_name h) [Seq names] = Err <-> exists n, In n names /\ holds src_name h n = None.
Proof.
  unfold get_srcs. assert (H : forall n, lookup n (run src_name h) = holds src_name h n).
  { intros n. unfold run, holds, latest. destruct (run_inv src_name h [] n (NoDup_nil _)) as [_ ->]. reflexivity. }
  rewrite <- (Exists_exists (fun n => holds src_name h n = None)). destruct (getall (run src_name h) names) eqn:E; cbn [bind].
  - split; [discriminate|]. intros X. exfalso. assert (Y : getall (run src_name h) names = Err); [|congruence]. apply getall_err. eapply Exists_impl; [|exact X]. intros a0 A. rewrite H. auto.
  - split; auto. intros _. apply getall_err in E. eapply Exists_impl; [|exact E]. intros a0 A. cbn in *. rewrite <- H. auto.
Qed.
(* names given one by one are the same as names given together *)
Theorem C49_arguments h n names : get_srcs (run src_name h) (map Str (n :: names)) = get_srcs (run src_name h) [Seq (n :: names)].
Proof.
  pose proof (strs_map (n :: names)) as E. unfold get_srcs. destruct names as [|m names]; cbn [map] in *; rewrite E; reflexivity.
Qed.
(* the keys are the names that hold something, each once, and get without names asks for them *)
Theorem C49_keys h : NoDup (keys (run src_name h)) /\ (forall n, In n (keys (run src_name h)) <-> holds src_name h n <> None) /\
  forall A (attr : S -> A), exists l, Forall2 (fun n s => holds src_name h n = Some s) (keys (run src_name h)) l /\ get attr (run src_name h) None = Ok (map attr l).
Proof.
  assert (H : forall n, lookup n (run src_name h) = holds src_name h n).
  { intros n. unfold run, holds, latest. destruct (run_inv src_name h [] n (NoDup_nil _)) as [_ ->]. reflexivity. }
  split; [apply (run_inv src_name h [] EmptyString (NoDup_nil _))|]. split.
  - intros n. rewrite <- H. apply lookup_in_fst.
  - intros A attr. destruct (getall (run src_name h) (keys (run src_name h))) as [l|] eqn:E.
    + exists l. split; [|unfold get; rewrite E; auto]. apply getall_iff in E. clear - E H. induction E; constructor; auto. rewrite <- H. auto.
    + apply getall_err in E. apply Exists_exists in E as (n & I & N). apply lookup_in_fst in I. contradiction.
Qed.
(* get with names *)
Theorem C49_get {A} (attr : S -> A) h names v :
  get attr (run src_name h) (Some names) = Ok v <-> exists l, Forall2 (fun n s => holds src_name h n = Some s) names l /\ v = map attr l.
Proof.
  unfold get. split.
  - destruct (getall _ names) eqn:E; [|discriminate]. cbn [bind]. intros [= <-]. exists a. split; auto. apply (C49_get_srcs h names a). unfold get_srcs. rewrite E. auto.
  - intros (l & F & ->). apply (C49_get_srcs h names l) in F. unfold get_srcs in F. destruct (getall _ names); [|discriminate]. cbn [bind] in *. congruence.
Qed.
(* which calls raise: add_srcs of anything but sources, or one sequence of sources; deleting a name that holds nothing *)
Theorem C49_calls h :
  (forall args, snd (add_srcs src_name (run src_name h) args) = true <-> (exists l, args = [Many l]) \/ exists l, args = map One l) /\
  (forall k s, snd (setitem (run src_name h) k s) = true) /\
  (forall k, snd (delitem (run src_name h) k) = true <-> holds src_name h k <> None).
Proof.
  split; [|split].
  - assert (G : forall args c, snd (add_each src_name c args) = true <-> exists l, args = map One l).
    { induction args as [|[s|l|] args IH]; intros c; cbn [add_each snd].
      - split; auto. intros _. exists []. auto.
      - rewrite IH. split; [intros [l ->]; exists (s :: l); auto|]. intros [[|x l] E]; [discriminate|]. injection E as _ ->. eauto.
      - split; [discriminate|]. intros [[|x k] E]; discriminate.
      - split; [discriminate|]. intros [[|x k] E]; discriminate. }
    assert (H : forall args : list (aarg (S := S)), (exists l, args = map One l) -> ~ (exists l, args = [Many l])).
    { intros args [[|x l] ->] [l' E]; discriminate. }
    intros args. destruct args as [|[s|l|] [|a r]]; unfold add_srcs; try (rewrite G; split; [auto|intros [[l' X]|X]; [discriminate|auto]]).
    + split; [|auto]. intros _. left. eauto.
    + cbn [snd]. split; [discriminate|]. intros [[l X]|[[|x l] X]]; discriminate.
  - auto.
  - assert (H : forall n, lookup n (run src_name h) = holds src_name h n).
    { intros n. unfold run, holds, latest. destruct (run_inv src_name h [] n (NoDup_nil _)) as [_ ->]. reflexivity. }
    intros k. unfold delitem. rewrite H. destruct (holds src_name h k); cbn [snd]; split; auto; try discriminate.
Qed.
(* a finding: without arguments get_srcs gives nothing at all, whatever the catalogue holds *)
Theorem C49_get_srcs_all_refuted (c : catalog (S := S)) : get_srcs c [] = Ok None.
Proof. reflexivity. Qed.
(* a finding: a call that raises part way has already put the sources before the bad argument *)
Theorem C49_add_part_refuted c s : snd (add_srcs src_name c [One s; Other]) = false /\ lookup (src_name s) (fst (add_srcs src_name c [One s; Other])) = Some s.
Proof. cbn. split; auto. unfold put. rewrite lookup_dset, String.eqb_refl. auto. Qed.

(* src.get_catalog: modules whose sources stand under their own names *)
Variable flux : S -> R -> R.
Context (modules : dict (dict S)).
Hypothesis own_names : forall c m, lookup c modules = Some m -> forall k s, lookup k m = Some s -> src_name s = k.
(* what catalogue c has under name k *)
Definition has (k : string) (c : string) : option S := match lookup c modules with Some m => lookup k m | None => None end.
(* by names: each name asked is found in the last listed catalogue that has it, and nothing
   else is in the result *)
Theorem C49_by_name names cats k cutoff :
  lookup k (get_catalog src_name flux modules (Some (map Named names)) cutoff cats) =
  if existsb (String.eqb k) names then last_some (map (has k) cats) else None.
Proof.
  rewrite catalog_lookup by exact own_names. assert (M : made (S := S) (Some (map Named names)) = []) by (cbn; induction names; auto). rewrite M. cbn [map fold_left].
  assert (N : forall m, names_of flux m (Some (map Named names)) cutoff = names) by (intros m; cbn; induction names as [|n names IH]; cbn; [auto|f_equal; auto]).
  unfold last_some. assert (E : forall c, offer flux modules k (Some (map Named names)) cutoff c = if existsb (String.eqb k) names then has k c else None).
  { intros c. unfold offer, has. destruct (lookup c modules) as [m|]; [|destruct (existsb _ _); auto]. specialize (N m). unfold catalog in N. rewrite N. auto. }
  rewrite (map_ext _ _ E). destruct (existsb _ _); auto. clear. induction cats; cbn; auto.
Qed.
(* everything: every source of every listed catalogue, the last one listed winning *)
Theorem C49_all cats k : lookup k (get_catalog src_name flux modules None None cats) = last_some (map (has k) cats).
Proof.
  rewrite catalog_lookup by exact own_names. cbn [made map fold_left]. f_equal. apply map_ext. intros c. unfold offer, has. destruct (lookup c modules) as [m|] eqn:E; auto.
  cbn [names_of]. destruct (existsb (String.eqb k) (keys m)) eqn:X; auto. destruct (lookup k m) eqn:Y; auto. rewrite <- not_true_iff_false in X. exfalso. apply X. apply existsb_exists. exists k. split; [|apply String.eqb_refl].
  apply lookup_in_fst. congruence.
Qed.
(* by flux: exactly those above the cutoff at the given frequency *)
Theorem C49_by_flux cats k cut fq : lookup k (get_catalog src_name flux modules None (Some (cut, fq)) cats) =
  last_some (map (fun c => match has k c with Some s => if Rlt_dec cut (flux s fq) then Some s else None | None => None end) cats).
Proof.
  rewrite catalog_lookup by exact own_names. cbn [made map fold_left]. f_equal. apply map_ext. intros c. unfold offer, has. destruct (lookup c modules) as [m|] eqn:E; auto.
  cbn [names_of]. set (b := existsb _ _). assert (B : b = match lookup k m with Some s => if Rlt_dec cut (flux s fq) then true else false | None => false end).
  { apply eq_true_iff_eq. unfold b. rewrite existsb_exists. split.
    - intros (n & I & Q). apply String.eqb_eq in Q. subst n. apply filter_In in I as [_ F]. destruct (lookup k m); [|discriminate]. unfold Rltb in F. destruct (Rlt_dec _ _); auto.
    - destruct (lookup k m) eqn:Y; [|discriminate]. destruct (Rlt_dec _ _) as [Q|]; [|discriminate]. intros _. exists k. split; [|apply String.eqb_refl]. apply filter_In.
      split; [apply lookup_in_fst; congruence|]. rewrite Y. unfold Rltb. destruct (Rlt_dec _ _); auto. }
  rewrite B. destruct (lookup k m); auto. destruct (Rlt_dec _ _); auto.
Qed.
(* names and source objects mixed: an object given is found under its own name, the last one
   given winning, before anything from a catalogue *)
Theorem C49_made l cats cutoff k : lookup k (get_catalog src_name flux modules (Some l) cutoff cats) =
  match last_some (map (fun w => match w with Made s => if String.eqb k (src_name s) then Some s else None | Named _ => None end) l) with
  | Some s => Some s
  | None => if existsb (fun w => match w with Named n => String.eqb k n | Made _ => false end) l then last_some (map (has k) cats) else None
  end.
Proof.
  rewrite catalog_lookup by exact own_names. unfold last_some at 2. cbn [made].
  assert (G : forall l (found acc : option S), (match acc with Some s => Some s | None => found end) = match acc with Some s => Some s | None => found end ->
     fold_left (over k) (map (ev src_name) (flat_map (fun w => match w with Made s => [s] | Named _ => [] end) l)) (match acc with Some s => Some s | None => found end) =
     match fold_left (fun a o => match o with Some s => Some s | None => a end) (map (fun w => match w with Made s => if String.eqb k (src_name s) then Some s else None | Named _ => None end) l) acc with
     | Some s => Some s | None => found end).
  { clear. induction l as [|[n|s] l IH]; intros found acc _; cbn [flat_map map fold_left app]; auto. unfold over at 2. unfold ev at 2. cbn [fst snd].
    destruct (String.eqb k (src_name s)); [apply (IH found (Some s)); auto | apply IH; auto]. }
  rewrite <- (G l _ None eq_refl). f_equal.
  assert (E : forall c, offer flux modules k (Some l) cutoff c = if existsb (fun w => match w with Named n => String.eqb k n | Made _ => false end) l then has k c else None).
  { intros c. unfold offer, has. destruct (lookup c modules) as [m|]; [|destruct (existsb _ _); auto]. cbn [names_of].
    assert (N : existsb (String.eqb k) (flat_map (fun w => match w with Named n => [n] | Made _ => [] end) l) = existsb (fun w : want (S := S) => match w with Named n => String.eqb k n | Made _ => false end) l).
    { clear. induction l as [|[n|s] l IH]; cbn [flat_map existsb app]; auto. rewrite IH. auto. }
    rewrite N. auto. }
  rewrite (map_ext _ _ E). destruct (existsb _ _); auto. clear. unfold last_some. induction cats; cbn; auto.
Qed.
End Cat.
(* sources are pairs of a name and a mark *)
Example C49_case : let h := [Add [Many [("cyg", 1); ("cas", 2)]]; Add [One ("cyg", 3)]; SetItem "x" ("y", 4); Add [One ("z", 5); Other]; Del "cas"]%string in
  get_srcs (run (@fst string nat) h) [Seq ["z"; "cyg"; "x"]%string] = Ok (Some [("z", 5); ("cyg", 3); ("y", 4)]%string) /\
  get_srcs (run (@fst string nat) h) [Str "cas"] = Err /\
  (let m := [("helm", [("cyg", ("cyg", 1))]); ("misc", [("cyg", ("cyg", 2))])]%string in
   (forall c d, lookup c m = Some d -> forall k s, lookup k d = Some s -> fst s = k) /\
   lookup "cyg" (get_catalog fst (fun _ _ => 0%R) m None None ["helm"; "nowhere"; "misc"]%string) = Some ("cyg", 2)%string).
Proof.
  split; [reflexivity|]. split; [reflexivity|]. split; [|reflexivity]. intros c d. cbn [lookup]. destruct (String.eqb_spec c "helm").
  - intros [= <-] k s. cbn [lookup]. destruct (String.eqb_spec k "cyg"); [|discriminate]. intros [= <-]. auto.
  - destruct (String.eqb_spec c "misc"); [|discriminate]. intros [= <-] k s. cbn [lookup]. destruct (String.eqb_spec k "cyg"); [|discriminate]. intros [= <-]. auto.
Qed.
Print Assumptions C49_calls.
Print Assumptions C49_get_srcs.
Print Assumptions C49_unknown.
Print Assumptions C49_arguments.
Print Assumptions C49_keys.
Print Assumptions C49_get.
Print Assumptions C49_get_srcs_all_refuted.
Print Assumptions C49_add_part_refuted.
Print Assumptions C49_by_name.
Print Assumptions C49_all.
Print Assumptions C49_by_flux.
Print Assumptions C49_made.
