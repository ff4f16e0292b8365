(* Proofs about flatten_prms / reconstruct_prms. *)
From Verif Require Import Base FlatModel FlatSpec.
From Coq Require Import String Permutation.
Open Scope nat_scope.
Ltac Zify.zify_post_hook ::= idtac.

Section FlatProofs.
Context {V : Type}.
Local Notation prm := (prm V).

Fixpoint prm_ind2 (P : prm -> Prop) (hn : forall v, P (PNum v)) (hl : forall l, P (PList l))
  (hd : forall d, Forall (fun kv => P (snd kv)) d -> P (PDict d)) (p : prm) : P p :=
  match p with
  | PNum v => hn v
  | PList l => hl l
  | PDict d => hd d ((fix go d : Forall (fun kv => P (snd kv)) d :=
                        match d with [] => Forall_nil _ | kv :: r => Forall_cons _ (prm_ind2 P hn hl hd (snd kv)) (go r) end) d)
  end.

(* sorting looks at keys only *)
Lemma insert_map {A B} (f : A -> B) x l :
  insert_key (fst x, f (snd x)) (map (fun kv => (fst kv, f (snd kv))) l) = map (fun kv => (fst kv, f (snd kv))) (insert_key x l).
Proof.
  induction l as [|y l IH]; auto. cbn [map insert_key fst]. destruct (String.leb (fst x) (fst y)); auto.
  cbn [map]. rewrite IH. auto.
Qed.
Lemma sort_map {A B} (f : A -> B) l :
  sort_keys (map (fun kv => (fst kv, f (snd kv))) l) = map (fun kv => (fst kv, f (snd kv))) (sort_keys l).
Proof. induction l as [|x l IH]; auto. cbn [map sort_keys]. rewrite IH. apply insert_map. Qed.
Lemma insert_perm {A} (x : string * A) l : Permutation (x :: l) (insert_key x l).
Proof.
  induction l as [|y l IH]; auto. cbn [insert_key]. destruct (String.leb (fst x) (fst y)); auto.
  eapply perm_trans; [apply perm_swap|]. constructor. auto.
Qed.
Lemma sort_perm {A} (l : list (string * A)) : Permutation l (sort_keys l).
Proof. induction l as [|x l IH]; auto. cbn [sort_keys]. eapply perm_trans; [constructor; exact IH | apply insert_perm]. Qed.

(* sorted, adjacent-wise *)
Fixpoint sorted {A} (l : list (string * A)) : Prop :=
  match l with x :: ((y :: _) as r) => String.leb (fst x) (fst y) = true /\ sorted r | _ => True end.
Lemma insert_sorted {A} (x : string * A) l : sorted l -> sorted (insert_key x l).
Proof.
  induction l as [|y l IH]; intros S; [exact I|]. cbn [insert_key]. destruct (String.leb (fst x) (fst y)) eqn:E.
  - split; auto.
  - destruct (String.leb_total (fst x) (fst y)) as [T|T]; [congruence|].
    assert (S' : sorted l) by (destruct l; [exact I | apply S]). specialize (IH S'). destruct l as [|z l].
    + cbn. auto.
    + cbn [insert_key] in *. destruct (String.leb (fst x) (fst z)); split; auto. apply S.
Qed.
Lemma sort_sorted {A} (l : list (string * A)) : sorted (sort_keys l).
Proof. induction l; [exact I|]. cbn [sort_keys]. apply insert_sorted; auto. Qed.
Lemma sort_id {A} (l : list (string * A)) : sorted l -> sort_keys l = l.
Proof.
  induction l as [|x l IH]; auto. intros S. cbn [sort_keys]. rewrite IH by (destruct l; [exact I | apply S]).
  destruct l as [|y l]; auto. cbn [insert_key]. destruct S as [-> _]. auto.
Qed.

(* the dictionary with all keys sorted *)
Fixpoint norm (p : prm) : prm :=
  match p with
  | PNum v => PNum v
  | PList l => PList l
  | PDict d => PDict (sort_keys (map (fun kv => (fst kv, norm (snd kv))) d))
  end.
(* flattening without sorting *)
Fixpoint flatn (p : prm) (acc : list V) : list V * kl :=
  match p with
  | PNum v => (acc ++ [v], KLeaf (List.length acc) 1)
  | PList l => (acc ++ l, KLeaf (List.length acc) (List.length l))
  | PDict d => let '(acc', ks) := flat_loop (map (fun kv => (fst kv, flatn (snd kv))) d) acc in (acc', KDict ks)
  end.

Lemma flat_loop_ext l m : Forall2 (fun (x y : string * (list V -> list V * kl)) => fst x = fst y /\ forall acc, snd x acc = snd y acc) l m ->
  forall acc, flat_loop l acc = flat_loop m acc.
Proof.
  induction 1 as [|[k f] [k2 g] l m [E1 E2] F IH]; intros acc; auto. cbn in E1. subst. cbn [flat_loop].
  cbn [snd] in E2. rewrite E2. destruct (g acc). rewrite IH. reflexivity.
Qed.
Lemma Forall2_map_same {A B C} (R : B -> C -> Prop) (f : A -> B) (g : A -> C) l : Forall (fun x => R (f x) (g x)) l -> Forall2 R (map f l) (map g l).
Proof. induction 1; constructor; auto. Qed.

Lemma flatten_norm p : forall acc, flatten p acc = flatn (norm p) acc.
Proof.
  induction p as [v|l|d H] using prm_ind2; auto. intros acc. cbn [flatten norm flatn].
  rewrite (sort_map flatten), (sort_map norm), map_map. cbn [fst snd].
  rewrite (flat_loop_ext _ (map (fun x => (fst x, flatn (norm (snd x)))) (sort_keys d))); auto.
  apply Forall2_map_same. apply (Permutation_Forall (sort_perm d)) in H. eapply Forall_impl; [|exact H].
  intros x Hx. cbn [fst snd]. auto.
Qed.

(* values in order *)
Fixpoint vals (p : prm) : list V :=
  match p with PNum v => [v] | PList l => l | PDict d => flat_map (fun kv => vals (snd kv)) d end.
Lemma flatn_acc p : forall acc, exists k, flatn p acc = (acc ++ vals p, k).
Proof.
  induction p as [v|l|d H] using prm_ind2; intros acc; cbn [flatn vals]; eauto.
  assert (G : exists ks, flat_loop (map (fun kv => (fst kv, flatn (snd kv))) d) acc = (acc ++ flat_map (fun kv => vals (snd kv)) d, ks)).
  { revert acc. induction H as [|[k x] d Hx F IH]; intros acc; cbn [map flat_loop flat_map fst snd].
    - rewrite app_nil_r. eauto.
    - cbn [snd] in Hx. destruct (Hx acc) as [k1 ->]. destruct (IH (acc ++ vals x)) as [ks ->]. rewrite <- app_assoc. eauto. }
  destruct G as [ks ->]. eauto.
Qed.

Definition rloop (vs : list V) := (fix loop (d : list (string * kl)) : res (list (string * prm)) :=
             match d with
             | [] => Ok []
             | (k, x) :: r => bind (reconstruct vs x) (fun y => bind (loop r) (fun ys => Ok ((k, y) :: ys)))
             end).
Lemma reconstruct_dict vs d : reconstruct vs (KDict d) = bind (rloop vs d) (fun l => Ok (PDict l)).
Proof. reflexivity. Qed.

Lemma rebuild p : lists_have 2 p -> forall acc post, reconstruct (acc ++ vals p ++ post) (snd (flatn p acc)) = Ok p.
Proof.
  induction p as [v|l|d H] using prm_ind2; intros L acc post.
  - cbn [flatn snd vals reconstruct Nat.ltb Nat.leb]. rewrite nth_error_app2, Nat.sub_diag by auto. reflexivity.
  - cbn [flatn snd vals reconstruct]. inversion L as [|? L2|]; subst.
    destruct (Nat.ltb_spec 1 (List.length l)); [|lia].
    rewrite skipn_app, skipn_all, Nat.sub_diag. cbn [skipn app]. rewrite firstn_app, firstn_all, Nat.sub_diag. cbn [firstn].
    rewrite app_nil_r. auto.
  - cbn [vals]. assert (LD : Forall (fun kv => lists_have 2 (snd kv)) d).
    { inversion L; subst. apply Forall_forall. intros [k x] Hx. cbn. eauto. }
    assert (G : forall acc post, rloop (acc ++ flat_map (fun kv => vals (snd kv)) d ++ post)
              (snd (flat_loop (map (fun kv => (fst kv, flatn (snd kv))) d) acc)) = Ok d).
    { clear -H LD. induction H as [|[k x] d Hx F IH]; intros acc post; auto.
      inversion LD as [|? ? L1 L2]; subst. cbn [snd] in Hx, L1. cbn [map flat_loop flat_map fst snd].
      assert (Hx' := fun post => Hx L1 acc post).
      destruct (flatn_acc x acc) as [k1 E1]. rewrite E1 in *. cbn [snd] in Hx'.
      destruct (flat_loop (map (fun kv => (fst kv, flatn (snd kv))) d) (acc ++ vals x)) as [acc2 ks] eqn:E2.
      cbn [snd rloop]. rewrite <- !app_assoc. rewrite Hx'. cbn [bind]. fold (rloop (acc ++ vals x ++ flat_map (fun kv => vals (snd kv)) d ++ post)).
      specialize (IH L2 (acc ++ vals x) post). rewrite E2 in IH. cbn [snd] in IH. rewrite <- app_assoc in IH. rewrite IH. reflexivity. }
    cbn [flatn]. specialize (G acc post). destruct (flat_loop (map (fun kv => (fst kv, flatn (snd kv))) d) acc) as [acc2 ks].
    cbn [snd] in *. rewrite reconstruct_dict, G. reflexivity.
Qed.

(* norm keeps the dictionary *)
Lemma same_norm p : same p (norm p).
Proof.
  induction p as [v|l|d H] using prm_ind2; cbn [norm]; try constructor.
  rewrite sort_map. apply (same_dict _ _ (sort_keys d)); [apply sort_perm|].
  apply (Permutation_Forall (sort_perm d)) in H. induction H as [|[k x] e Hx F IH]; constructor; auto.
Qed.
Lemma norm_lists n p : lists_have n p -> lists_have n (norm p).
Proof.
  induction p as [v|l|d H] using prm_ind2; cbn [norm]; auto. intros L. inversion L as [| |? L2]; subst. constructor.
  intros k x Hx. apply (Permutation_in _ (Permutation_sym (sort_perm _))) in Hx.
  apply in_map_iff in Hx as ([k0 y] & E & Hy). cbn in E. injection E as <- <-.
  rewrite Forall_forall in H. apply (H (k0, y) Hy). cbn. eauto.
Qed.

(* shapes *)
Lemma shape_items_F2 a b : shape_items a b <-> Forall2 (fun (x y : string * prm) => fst x = fst y /\ same_shape (snd x) (snd y)) a b.
Proof.
  split.
  - induction a as [|x a IH] in b |- *; intros H; inversion H; subst; constructor; auto.
  - induction 1 as [|[k x] [k2 y] a b [E S] F IH]; [constructor|]. cbn in *. subst. constructor; auto.
Qed.
Lemma insert_F2 {A} (R : A -> A -> Prop) (x y : string * A) l m : fst x = fst y -> R (snd x) (snd y) ->
  Forall2 (fun a b : string * A => fst a = fst b /\ R (snd a) (snd b)) l m ->
  Forall2 (fun a b : string * A => fst a = fst b /\ R (snd a) (snd b)) (insert_key x l) (insert_key y m).
Proof.
  intros E H. induction 1 as [|a b l m [E2 H2] F IH]; cbn [insert_key]; [constructor; auto|].
  rewrite E, E2. destruct (String.leb (fst y) (fst b)); constructor; auto.
Qed.
Lemma sort_F2 {A} (R : A -> A -> Prop) l m :
  Forall2 (fun a b : string * A => fst a = fst b /\ R (snd a) (snd b)) l m ->
  Forall2 (fun a b : string * A => fst a = fst b /\ R (snd a) (snd b)) (sort_keys l) (sort_keys m).
Proof. induction 1 as [|x y l m [E H] F IH]; cbn [sort_keys]; [constructor|]. apply insert_F2; auto. Qed.
Lemma norm_shape p : forall q, same_shape p q -> same_shape (norm p) (norm q).
Proof.
  induction p as [v|l|d H] using prm_ind2; intros q S; inversion S; subst; cbn [norm]; try constructor; auto.
  apply shape_items_F2, sort_F2. rewrite shape_items_F2 in H1. clear S. revert H. induction H1 as [|x y a b [E S] F IH]; intros H; [constructor|].
  inversion H; subst. cbn [map]. constructor; [cbn [fst snd]; auto | apply IH; auto].
Qed.
Lemma shape_keys p : forall q, same_shape p q -> forall acc acc', List.length acc = List.length acc' ->
  snd (flatn p acc) = snd (flatn q acc') /\ List.length (vals p) = List.length (vals q).
Proof.
  induction p as [v|l|d H] using prm_ind2; intros q S acc acc' E; inversion S; subst.
  - cbn [flatn snd]. rewrite E. auto.
  - cbn [flatn snd vals]. rewrite E, H0. auto.
  - rewrite shape_items_F2 in H1. cbn [flatn vals].
    assert (G : forall acc acc', List.length acc = List.length acc' ->
      snd (flat_loop (map (fun kv => (fst kv, flatn (snd kv))) d) acc) = snd (flat_loop (map (fun kv => (fst kv, flatn (snd kv))) b) acc') /\
      List.length (flat_map (fun kv => vals (snd kv)) d) = List.length (flat_map (fun kv => vals (snd kv)) b)).
    { clear -H H1. revert H. induction H1 as [|[k x] [k2 y] d b [E1 S1] F IH]; intros H acc acc' E; [auto|].
      inversion H as [|? ? H2 H3]; subst. cbn in E1, S1, H2. subst k2. destruct (H2 y S1 acc acc' E) as [K L].
      cbn [map flat_loop flat_map fst snd]. destruct (flatn_acc x acc) as [k1 E1], (flatn_acc y acc') as [k2 E2].
      rewrite E1, E2 in *. cbn [snd] in K. subst k2.
      destruct (IH H3 (acc ++ vals x) (acc' ++ vals y)) as [K2 L2]; [rewrite !app_length; lia|].
      destruct (flat_loop (map _ d) _), (flat_loop (map _ b) _). cbn [snd] in *. subst. rewrite !app_length. auto. }
    destruct (G acc acc' E) as [K L]. destruct (flat_loop (map _ d) _), (flat_loop (map _ b) _). cbn [snd] in *. subst. auto.
Qed.

Theorem round_trip (p q : prm) : same_shape p q -> lists_have 2 q ->
  exists r : prm, reconstruct (fst (flatten_prms q)) (snd (flatten_prms p)) = Ok r /\ same q r.
Proof.
  intros S L. exists (norm q). split; [|apply same_norm]. unfold flatten_prms. rewrite !flatten_norm.
  rewrite (proj1 (shape_keys _ _ (norm_shape _ _ S) [] [] eq_refl)).
  destruct (flatn_acc (norm q) []) as [k E]. assert (R := rebuild (norm q) (norm_lists 2 q L) [] []).
  rewrite app_nil_r in R. rewrite E in *. cbn [fst snd app] in *. auto.
Qed.

(* ---- new values ---- *)
(* every dictionary sorted *)
Inductive all_sorted : prm -> Prop :=
| as_num v : all_sorted (PNum v)
| as_list l : all_sorted (PList l)
| as_dict d : sorted d -> Forall (fun kv => all_sorted (snd kv)) d -> all_sorted (PDict d).
Lemma norm_sorted p : all_sorted (norm p).
Proof.
  induction p as [v|l|d H] using prm_ind2; cbn [norm]; constructor; [apply sort_sorted|].
  rewrite sort_map. apply (Permutation_Forall (sort_perm d)) in H. apply Forall_forall. intros kv Hk.
  apply in_map_iff in Hk as (x & <- & Hx). cbn. rewrite Forall_forall in H. auto.
Qed.
Lemma sorted_norm p : all_sorted p -> norm p = p.
Proof.
  induction p as [v|l|d H] using prm_ind2; intros S; auto. inversion S as [| |? S1 S2]; subst. cbn [norm].
  rewrite sort_map, sort_id by auto. f_equal. clear -H S2. induction H as [|[k x] d Hx F IH]; auto. inversion S2; subst.
  cbn [map fst snd] in *. rewrite Hx, IH by auto. auto.
Qed.

(* rebuilding from other values, on sorted dictionaries *)
Lemma refill p : lists_have 1 p -> all_sorted p -> forall acc acc' ws post, List.length acc = List.length acc' -> List.length ws = List.length (vals p) ->
  exists q, reconstruct (acc ++ ws ++ post) (snd (flatn p acc')) = Ok q /\ all_sorted q /\
    (forall acc2, List.length acc2 = List.length acc -> snd (flatn q acc2) = snd (flatn p acc')) /\ vals q = ws.
Proof.
  induction p as [v|l|d H] using prm_ind2; intros L S acc acc' ws post EA EW.
  - destruct ws as [|w [|? ?]]; try discriminate EW. exists (PNum w). split; [|split; [constructor|split; auto]].
    + cbn [flatn snd reconstruct Nat.ltb Nat.leb]. rewrite nth_error_app2 by lia. rewrite EA, Nat.sub_diag. reflexivity.
    + intros acc2 E2. cbn [flatn snd]. congruence.
  - cbn [vals] in EW. inversion L as [|? L2|]; subst. cbn [flatn snd reconstruct]. destruct (Nat.ltb_spec 1 (List.length l)).
    + exists (PList ws). split; [|split; [constructor|split; auto]].
      * rewrite <- EA, <- EW. rewrite skipn_app, skipn_all, Nat.sub_diag. cbn [skipn app].
        rewrite firstn_app, firstn_all, Nat.sub_diag. cbn [firstn]. rewrite app_nil_r. auto.
      * intros acc2 E2. cbn [flatn snd]. congruence.
    + assert (List.length l = 1) by lia. destruct ws as [|w [|? ?]]; try (cbn in EW; lia). exists (PNum w).
      split; [|split; [constructor|split; auto]].
      * rewrite nth_error_app2 by lia. rewrite EA, Nat.sub_diag. reflexivity.
      * intros acc2 E2. cbn [flatn snd]. congruence.
  - cbn [vals] in EW. inversion S as [| |? S1 S2]; subst.
    assert (LD : Forall (fun kv => lists_have 1 (snd kv)) d).
    { inversion L; subst. apply Forall_forall. intros [k x] Hx. cbn. eauto. }
    assert (G : forall acc acc' ws post, List.length acc = List.length acc' -> List.length ws = List.length (flat_map (fun kv => vals (snd kv)) d) ->
      exists e, rloop (acc ++ ws ++ post) (snd (flat_loop (map (fun kv => (fst kv, flatn (snd kv))) d) acc')) = Ok e /\
        map fst e = map fst d /\ Forall (fun kv => all_sorted (snd kv)) e /\
        (forall acc2, List.length acc2 = List.length acc -> snd (flat_loop (map (fun kv => (fst kv, flatn (snd kv))) e) acc2) =
           snd (flat_loop (map (fun kv => (fst kv, flatn (snd kv))) d) acc')) /\
        flat_map (fun kv => vals (snd kv)) e = ws).
    { clear -H LD S2. induction H as [|[k x] d Hx F IH]; intros acc acc' ws post EA EW.
      - destruct ws; [|discriminate]. exists []. repeat split; auto.
      - inversion LD as [|? ? L1 L2]; inversion S2 as [|? ? S1 S3]; subst. cbn [snd] in *. cbn [flat_map snd] in EW. rewrite app_length in EW.
        assert (EX : exists w1 w2, ws = w1 ++ w2 /\ List.length w1 = List.length (vals x)).
        { exists (firstn (List.length (vals x)) ws), (skipn (List.length (vals x)) ws). rewrite firstn_skipn, firstn_length. split; auto. lia. }
        destruct EX as (w1 & w2 & -> & W1). rewrite app_length in EW.
        destruct (Hx L1 S1 acc acc' w1 (w2 ++ post) EA W1) as (q & R & Sq & Kq & Vq).
        destruct (IH S3 L2 (acc ++ w1) (acc' ++ vals x) w2 post) as (e & Re & Me & Se & Ke & Ve); [rewrite !app_length; lia | lia |].
        exists ((k, q) :: e). cbn [map flat_loop flat_map fst snd].
        destruct (flatn_acc x acc') as [k1 E1]. rewrite E1 in *. cbn [snd] in R, Kq.
        destruct (flat_loop (map (fun kv => (fst kv, flatn (snd kv))) d) (acc' ++ vals x)) as [a2 ks] eqn:E2. cbn [snd] in *.
        split; [|split; [congruence|split; [constructor; auto|split; [|congruence]]]].
        + cbn [rloop]. fold (rloop (acc ++ (w1 ++ w2) ++ post)). rewrite <- !app_assoc in *. rewrite R. cbn [bind]. rewrite Re. reflexivity.
        + intros acc2 EL. destruct (flatn_acc q acc2) as [k2 Ek]. specialize (Kq acc2 EL). rewrite Ek in *. cbn [snd] in Kq. subst k2.
          specialize (Ke (acc2 ++ vals q)). rewrite !app_length in Ke. rewrite Vq in Ke. rewrite Vq.
          destruct (flat_loop (map _ e) (acc2 ++ w1)). cbn [snd] in *. rewrite Ke by lia. auto. }
    destruct (G acc acc' ws post EA EW) as (e & Re & Me & Se & Ke & Ve). exists (PDict e).
    cbn [flatn]. destruct (flat_loop (map (fun kv => (fst kv, flatn (snd kv))) d) acc') as [a2 ks]. cbn [snd] in *.
    split; [rewrite reconstruct_dict, Re; auto|]. split; [constructor; auto|].
    + clear -Me S1. revert e Me. induction d as [|x [|y d] IH]; intros e Me.
      * destruct e; [exact I | discriminate].
      * destruct e as [|? [|? ?]]; try discriminate; exact I.
      * destruct e as [|a [|b e]]; try discriminate. cbn [map] in Me. injection Me as M1 M2 M3.
        destruct S1 as [O S1]. split; [rewrite M1, M2; auto|]. apply (IH S1 (b :: e)). cbn. congruence.
    + split; [|exact Ve]. intros acc2 E2. specialize (Ke acc2 E2).
      destruct (flat_loop (map (fun kv => (fst kv, flatn (snd kv))) e) acc2). cbn [snd] in *. congruence.
Qed.

Lemma vals_count p : List.length (vals (norm p)) = count p.
Proof.
  induction p as [v|l|d H] using prm_ind2; auto. cbn [norm vals count].
  rewrite sort_map, flat_map_concat_map, map_map. cbn [snd].
  rewrite (Permutation_list_sum (Permutation_map (fun kv : string * prm => count (snd kv)) (sort_perm d))).
  apply (Permutation_Forall (sort_perm d)) in H. induction H as [|[k x] e Hx F IH]; auto.
  cbn [map List.concat list_sum]. rewrite app_length, IH. cbn [snd] in *. rewrite Hx. reflexivity.
Qed.

Theorem new_values (p : prm) (vs : list V) : lists_have 1 p -> List.length vs = count p ->
  exists q : prm, reconstruct vs (snd (flatten_prms p)) = Ok q /\ flatten_prms q = (vs, snd (flatten_prms p)).
Proof.
  intros L E. unfold flatten_prms. rewrite flatten_norm.
  destruct (refill (norm p) (norm_lists 1 p L) (norm_sorted p) [] [] vs [] eq_refl) as (q & R & S & K & Vq).
  { rewrite vals_count. auto. }
  rewrite app_nil_r in R. cbn [app] in R. exists q. split; auto. rewrite flatten_norm, (sorted_norm q S).
  specialize (K [] eq_refl). destruct (flatn_acc q []) as [k Ek]. rewrite Ek in *. cbn [snd app] in K. cbn [app]. congruence.
Qed.
End FlatProofs.
