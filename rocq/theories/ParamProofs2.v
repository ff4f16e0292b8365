(* Proofs about antenna parameters. *)
From Verif Require Import Base ParamModel ParamSpec ParamProofs.
From Coq Require Import Ascii String.
Ltac Zify.zify_post_hook ::= idtac.
Open Scope nat_scope.

Section A.
Context {F : Type}.
Implicit Types (h : list (list F)) (d : dict (aval F)).

Lemma nth_upd2 {A} (l : list A) i j x dv : nth j (upd l i x) dv = if Nat.eqb i j then (if j <? List.length l then x else dv) else nth j l dv.
Proof.
  revert i j. induction l as [|y l IH]; intros i j.
  - replace (j <? List.length (@nil A)) with false by (symmetry; apply Nat.ltb_ge; cbn; lia).
    cbn [upd]. destruct j; destruct (Nat.eqb i _); auto.
  - destruct i as [|i], j as [|j]; cbn [upd nth Nat.eqb]; auto. rewrite IH. reflexivity.
Qed.
Lemma rev_two (l : list F) : 2 <= List.length l -> exists r y o, l = r ++ [y; o].
Proof.
  intros H. destruct (rev l) as [|o [|y r]] eqn:E.
  - apply (f_equal (@rev F)) in E. rewrite rev_involutive in E. subst. cbn in H. lia.
  - apply (f_equal (@rev F)) in E. rewrite rev_involutive in E. subst. cbn in H. lia.
  - apply (f_equal (@rev F)) in E. rewrite rev_involutive in E. subst. exists (rev r), y, o. cbn. rewrite <- app_assoc. auto.
Qed.
Lemma upd_app (r : list F) t k x : upd (r ++ t) (List.length r + k) x = r ++ upd t k x.
Proof. induction r as [|y r IH]; auto. cbn [app List.length Nat.add upd]. rewrite IH. auto. Qed.
Lemma upd_last2 (l : list F) x : 2 <= List.length l -> upd l (List.length l - 2) x = with_last2 l x.
Proof.
  intros H. destruct (rev_two l H) as (r & y & o & ->). unfold with_last2. rewrite rev_app_distr. cbn [rev app].
  rewrite app_length. cbn [List.length]. replace (List.length r + 2 - 2) with (List.length r + 0) by lia. rewrite upd_app.
  cbn [upd]. rewrite rev_involutive, <- app_assoc. auto.
Qed.
Lemma upd_last (l : list F) x : 1 <= List.length l -> upd l (List.length l - 1) x = with_last l x.
Proof.
  intros H. destruct (rev l) as [|o r] eqn:E.
  - apply (f_equal (@rev F)) in E. rewrite rev_involutive in E. subst. cbn in H. lia.
  - unfold with_last. rewrite E. apply (f_equal (@rev F)) in E. rewrite rev_involutive in E. subst. cbn [rev].
    rewrite app_length. cbn [List.length]. replace (List.length (rev r) + 1 - 1) with (List.length (rev r) + 0) by lia. rewrite upd_app. auto.
Qed.

Lemma poke_ok h l b d k h' : poke h l b d k = Ok h' -> List.length h' = List.length h /\
  forall m, content h' m = if Nat.eqb l m then (match lookup k d with Some (ANum x) => upd (content h l) (List.length (content h l) - b) x | _ => content h m end) else content h m.
Proof.
  unfold poke. destruct (lookup k d) as [[x|r]|] eqn:E; try discriminate.
  - destruct (Nat.leb_spec b (List.length (content h l))); [|discriminate]. intros K. injection K as <-.
    split; [apply upd_length|]. intros m. unfold content at 1. rewrite nth_upd2. destruct (Nat.eqb_spec l m); auto. subst.
    destruct (Nat.ltb_spec m (List.length h)); auto. unfold content. rewrite (nth_overflow h) by auto. destruct (_ - b); auto.
  - intros K. injection K as <-. split; auto. intros m. destruct (Nat.eqb l m); auto.
Qed.
Lemma poke_len h l b d k h' x : poke h l b d k = Ok h' -> lookup k d = Some (ANum x) -> b <= List.length (content h l).
Proof. unfold poke. intros H E. rewrite E in H. destruct (Nat.leb_spec b (List.length (content h l))); [auto|discriminate]. Qed.

Definition set_fields d p (q : pset F) : pset F :=
  PSet (given d (name "phsoff" p) (p_off q)) (given d (name "bp_r" p) (p_bpr q)) (given d (bpi_set_name p) (p_bpi q))
       (given_num d (name "amp" p) (p_amp q)) (p_phs q) (p_gain q).
Definition keys_of p : list string := [name "dly" p; name "off" p; name "phsoff" p; name "bp_r" p; bpi_set_name p; name "amp" p].

Lemma pokes_ok h l p d h1 h2 : poke h l 2 d (name "dly" p) = Ok h1 -> poke h1 l 1 d (name "off" p) = Ok h2 ->
  List.length h2 = List.length h /\
  forall m, content h2 m = if Nat.eqb l m then edited d p (content h m) else content h m.
Proof.
  intros P1 P2. destruct (poke_ok _ _ _ _ _ _ P1) as [L1 C1]. destruct (poke_ok _ _ _ _ _ _ P2) as [L2 C2]. split; [congruence|].
  intros m. rewrite C2. destruct (Nat.eqb_spec l m) as [->|N].
  - assert (E1 : content h1 m = match lookup (name "dly" p) d with Some (ANum x) => with_last2 (content h m) x | _ => content h m end).
    { rewrite C1, Nat.eqb_refl. destruct (lookup (name "dly" p) d) as [[x|?]|] eqn:E; auto. apply upd_last2. eapply poke_len; eauto. }
    unfold edited. rewrite <- E1. destruct (lookup (name "off" p) d) as [[x|?]|] eqn:E; auto. apply upd_last. eapply poke_len; eauto.
  - rewrite C1. destruct (Nat.eqb_spec l m); [congruence|auto].
Qed.
Lemma pset_set_ok h p q d h' q' c : pset_set h p q d = Ok (h', q', c) ->
  q' = set_fields d p q /\ c = existsb (present d) (keys_of p) /\ List.length h' = List.length h /\
  forall m, content h' m = if Nat.eqb (p_off q) m then edited d p (content h m) else content h m.
Proof.
  unfold pset_set. destruct (poke h (p_off q) 2 d (name "dly" p)) as [h1|] eqn:P1; [|discriminate]. cbn [bind].
  destruct (poke h1 (p_off q) 1 d (name "off" p)) as [h2|] eqn:P2; [|discriminate]. cbn [bind].
  unfold get_ref, get_num. intros H.
  destruct (lookup (name "phsoff" p) d) as [[?|lp]|] eqn:E1; try discriminate H; cbn [bind] in H;
  (destruct (lookup (name "bp_r" p) d) as [[?|lr]|] eqn:E2; try discriminate H; cbn [bind] in H);
  (destruct (lookup (bpi_set_name p) d) as [[?|li]|] eqn:E3; try discriminate H; cbn [bind] in H);
  (destruct (lookup (name "amp" p) d) as [[xa|?]|] eqn:E4; try discriminate H; cbn [bind] in H);
  injection H as <- <- <-;
  (split; [unfold set_fields, given, given_num; rewrite E1, E2, E3, E4; reflexivity|]);
  (split; [reflexivity|]); exact (pokes_ok _ _ _ _ _ _ P1 P2).
Qed.

Lemma edited_id d p c : existsb (present d) (keys_of p) = false -> edited d p c = c.
Proof.
  intros H. unfold keys_of in H. cbn [existsb] in H. unfold present in H. unfold edited.
  destruct (lookup (name "dly" p) d); [discriminate|]. destruct (lookup (name "off" p) d); [discriminate|]. auto.
Qed.
Lemma psets_set_ok l : forall h d h' l' c, psets_set h l d = Ok (h', l', c) ->
  l' = map (fun kp => (fst kp, set_fields d (fst kp) (snd kp))) l /\
  c = existsb (fun p => existsb (present d) (keys_of p)) (map fst l) /\ List.length h' = List.length h /\
  (forall m, ~ In m (map (fun kp => p_off (snd kp)) l) -> content h' m = content h m) /\
  (c = false -> forall m, content h' m = content h m) /\
  (NoDup (map (fun kp => p_off (snd kp)) l) ->
   forall m, content h' m = match find (fun kp => Nat.eqb (p_off (snd kp)) m) l with Some (p, _) => edited d p (content h m) | None => content h m end).
Proof.
  induction l as [|[p q] l IH]; intros h d h' l' c H; cbn [psets_set] in H.
  - injection H as <- <- <-. repeat split; auto.
  - destruct (pset_set h p q d) as [[[h1 q1] c1]|] eqn:E; [|discriminate]. cbn [bind] in H.
    destruct (psets_set h1 l d) as [[[h2 l2] c2]|] eqn:E2; [|discriminate]. cbn [bind] in H. injection H as <- <- <-.
    apply pset_set_ok in E as (-> & -> & L1 & C1). apply IH in E2 as (-> & -> & L2 & N2 & U2 & C2).
    split; [reflexivity|]. split; [reflexivity|]. split; [congruence|]. cbn [map fst snd In find]. split.
    + intros m N. rewrite N2 by tauto. rewrite C1. destruct (Nat.eqb_spec (p_off q) m); tauto.
    + split. { intros CF m. cbn [existsb] in CF. apply orb_false_iff in CF as [CF1 CF2]. rewrite U2 by auto. rewrite C1.
        destruct (Nat.eqb (p_off q) m); auto. apply edited_id; auto. }
      intros ND m. inversion ND; subst. rewrite C2 by auto.
      destruct (Nat.eqb_spec (p_off q) m).
      * subst m. assert (X : find (fun kp => Nat.eqb (p_off (snd kp)) (p_off q)) l = None).
        { destruct (find _ l) as [[p2 q2]|] eqn:FE; auto. apply find_some in FE as [I1 I2]. apply Nat.eqb_eq in I2. cbn in I2.
          exfalso. apply H1. apply in_map_iff. exists (p2, q2). auto. }
        rewrite X, C1, Nat.eqb_refl. auto.
      * rewrite C1. destruct (Nat.eqb_spec (p_off q) m); [congruence|]. auto.
Qed.

(* ---- ant_set ---- *)
Lemma ant_set_ok (w : world F) i d w' : ant_set w i d = Ok w' -> exists a, nth_error (w_ants w) i = Some a /\
  exists h', List.length h' = List.length (w_heap w) /\
  (forall m, ~ In m (map (fun kp => p_off (snd kp)) (a_pols a)) -> content h' m = content (w_heap w) m) /\
  (existsb (fun p => existsb (present d) (keys_of p)) (map fst (a_pols a)) = false -> forall m, content h' m = content (w_heap w) m) /\
  (NoDup (map (fun kp => p_off (snd kp)) (a_pols a)) -> forall m, content h' m = new_content (w_heap w) a d m) /\
  let a1 := AntP (given_num d "x" (a_x a)) (given_num d "y" (a_y a)) (given_num d "z" (a_z a))
                 (map (fun kp => (fst kp, set_fields d (fst kp) (snd kp))) (a_pols a)) in
  w' = World h' (upd (w_ants w) i (if existsb (fun p => existsb (present d) (keys_of p)) (map fst (a_pols a)) || existsb (present d) ["x"; "y"; "z"]%string
                                   then update_ant h' a1 else a1)).
Proof.
  unfold ant_set. destruct (nth_error (w_ants w) i) as [a|] eqn:E; [|discriminate]. intros H. exists a. split; auto.
  unfold get_num in H.
  destruct (lookup "x" d) as [[x|?]|] eqn:Ex; try discriminate H; cbn [bind] in H;
  (destruct (lookup "y" d) as [[y|?]|] eqn:Ey; try discriminate H; cbn [bind] in H);
  (destruct (lookup "z" d) as [[z|?]|] eqn:Ez; try discriminate H; cbn [bind] in H);
  (destruct (psets_set (w_heap w) (a_pols a) d) as [[[h' l'] c]|] eqn:P; [|discriminate H]); cbn [bind] in H; injection H as <-;
  apply psets_set_ok in P as (-> & -> & L & N & NC & C); exists h'; (split; [auto|split; [auto|split; [exact NC|split; [intros ND m; unfold new_content; apply C; auto|]]]]);
  unfold given_num; rewrite Ex, Ey, Ez; reflexivity.
Qed.

(* ---- names ---- *)
Definition bases : list string := ["dly"; "off"; "phsoff"; "bp_r"; "bp_i"; "amp"]%string.
Lemma name_inj b b' p p' : In b bases -> In b' bases -> (p = ""%string <-> p' = ""%string) -> name b p = name b' p' -> b = b' /\ p = p'.
Proof.
  intros H H' HP E. unfold name in E. destruct (String.eqb_spec p ""), (String.eqb_spec p' ""); try tauto.
  - subst. auto.
  - simpl in H, H'. repeat (destruct H as [<-|H]; [repeat (destruct H' as [<-|H']; [cbn in E; first [discriminate E | injection E as E; auto]|]); destruct H'|]). destruct H.
Qed.
Lemma name_xyz b p k : In b bases -> In k ["x"; "y"; "z"]%string -> name b p <> k.
Proof.
  intros H K E. unfold name in E. simpl in H, K.
  repeat (destruct H as [<-|H]; [repeat (destruct K as [<-|K]; [destruct (String.eqb p ""); discriminate E|]); destruct K|]). destruct H.
Qed.
Lemma name_star b p : In b bases -> star (name b p) = false.
Proof. intros H. unfold name. simpl in H. repeat (destruct H as [<-|H]; [destruct (String.eqb p ""); reflexivity|]). destruct H. Qed.

(* ---- reading ---- *)
Lemma lookup_app {A} k (a b : dict A) : lookup k (a ++ b) = match lookup k a with Some v => Some v | None => lookup k b end.
Proof. induction a as [|[k2 v] a IH]; auto. cbn [app lookup]. destruct (String.eqb k k2); auto. Qed.
Definition deref h (v : aval F) : value := match v with ANum x => VNum x | ARef l => VList (content h l) end.
Definition second_last (l : list F) : option F := match rev l with _ :: x :: _ => Some x | _ => None end.
Definition last_of (l : list F) : option F := match rev l with o :: _ => Some o | _ => None end.
(* what get_params shows for base name b *)
Definition shows h (q : pset F) (b : string) : option value :=
  if String.eqb b "dly" then option_map VNum (second_last (content h (p_off q)))
  else if String.eqb b "off" then option_map VNum (last_of (content h (p_off q)))
  else if String.eqb b "phsoff" then Some (VList (content h (p_off q)))
  else if String.eqb b "bp_r" then Some (VList (content h (p_bpr q)))
  else if String.eqb b "bp_i" then Some (VList (content h (p_bpi q)))
  else if String.eqb b "amp" then Some (VNum (p_amp q)) else None.

Lemma psets_get_heap l : forall h, exists t, fst (psets_get h l) = h ++ t.
Proof.
  induction l as [|[p q] l IH]; intros h; cbn [psets_get].
  - exists []. rewrite app_nil_r. auto.
  - cbn [pset_get]. match goal with |- context [psets_get ?h1 l] => destruct (IH h1) as [t E]; destruct (psets_get h1 l) as [h2 d2] end.
    cbn [fst] in *. subst. eexists. rewrite <- app_assoc. reflexivity.
Qed.
Lemma content_app h t m : m < List.length h -> content (h ++ t) m = content h m.
Proof. intros H. unfold content. rewrite app_nth1 by auto. auto. Qed.
Definition pset_below n (q : pset F) : Prop := p_off q < n /\ p_bpr q < n /\ p_bpi q < n.

Lemma psets_get_spec l : forall h, Forall (fun kp => pset_below (List.length h) (snd kp)) l ->
  Forall (fun kp => 2 <= List.length (content h (p_off (snd kp)))) l ->
  NoDup (map fst l) -> (map fst l = [""%string] \/ ~ In ""%string (map fst l)) ->
  forall p q b, In (p, q) l -> In b bases ->
  option_map (deref (fst (psets_get h l))) (lookup (name b p) (snd (psets_get h l))) = shows h q b.
Proof.
  induction l as [|[p0 q0] l IH]; intros h B L2 ND NE p q b HI HB; [destruct HI|].
  inversion B as [|? ? B0 Bl]; inversion L2 as [|? ? L0 Ll]; inversion ND as [|? ? N0 Nl]; subst. cbn [snd] in B0, L0.
  cbn [psets_get]. unfold pset_get. cbn [fst snd].
  set (h1 := h ++ [content h (p_bpr q0); content h (p_bpi q0)]).
  destruct (psets_get_heap l h1) as [t Et].
  assert (Sh : forall q, pset_below (List.length h) q -> forall b, shows h1 q b = shows h q b).
  { intros q1 (A1 & A2 & A3) b1. unfold shows, h1. rewrite !content_app by auto. auto. }
  destruct (psets_get h1 l) as [h2 d2] eqn:E2. cbn [fst snd] in *. subst h2.
  destruct (rev_two _ L0) as (r & y & o & EC).
  assert (ER : rev (content h (p_off q0)) = o :: y :: rev r) by (rewrite EC, rev_app_distr; auto).
  rewrite ER, lookup_app. cbn [app lookup].
  destruct HI as [HI|HI].
  - injection HI as <- <-.
    assert (DN : forall x y, In x bases -> In y bases -> x <> y -> String.eqb (name x p0) (name y p0) = false).
    { intros x1 y1 X Y N. apply String.eqb_neq. intros E. apply name_inj in E as [E _]; auto. tauto. }
    unfold shows, second_last, last_of.
    assert (HB' := HB). simpl in HB'.
    destruct HB' as [<-|[<-|[<-|[<-|[<-|[<-|[]]]]]]]; rewrite ?String.eqb_refl; rewrite ?DN by (first [discriminate | simpl; tauto]); cbn [String.eqb Ascii.eqb Bool.eqb option_map deref].
    + rewrite ER. reflexivity.
    + rewrite ER. reflexivity.
    + destruct B0 as (B1 & B2 & B3). unfold h1. rewrite <- app_assoc. rewrite content_app by auto. reflexivity.
    + unfold h1. rewrite <- app_assoc. unfold content at 1. rewrite app_nth2, Nat.sub_diag by auto. reflexivity.
    + unfold h1. rewrite <- app_assoc. unfold content at 1. rewrite app_nth2 by auto. replace (S (List.length h) - List.length h) with 1 by lia. reflexivity.
    + reflexivity.
  - assert (NP : p0 <> p). { intros ->. apply N0. apply in_map_iff. exists (p, q). auto. }
    assert (EP : p0 = ""%string <-> p = ""%string).
    { destruct NE as [NE|NE].
      - cbn [map fst] in NE. injection NE as E1 E3. destruct l; [destruct HI | discriminate].
      - cbn [map fst] in NE. split; intros ->; exfalso; apply NE; [left; auto|right]. apply in_map_iff. exists (""%string, q). auto. }
    assert (DN : forall y, In y bases -> String.eqb (name b p) (name y p0) = false).
    { intros y1 Y. apply String.eqb_neq. intros E. symmetry in E. apply name_inj in E as [_ E]; auto. }
    rewrite !DN by (simpl; tauto).
    assert (LH : List.length h1 = List.length h + 2) by (unfold h1; rewrite app_length; auto).
    specialize (IH h1). rewrite E2 in IH. cbn [fst snd] in IH. rewrite (IH) with (q := q); auto.
    + apply Sh. rewrite Forall_forall in Bl. apply (Bl _ HI).
    + eapply Forall_impl; [|exact Bl]. intros a (A1 & A2 & A3). unfold pset_below. lia.
    + apply Forall_forall. intros kp HK. rewrite Forall_forall in Bl, Ll. unfold h1. rewrite content_app by (apply (Bl _ HK)). apply (Ll _ HK).
    + right. destruct NE as [NE|NE]; [|intros K; apply NE; right; auto]. cbn [map] in NE. injection NE as _ NE. destruct l; [destruct HI|discriminate].
Qed.


Definition ant_fits n (a : ant F) : Prop := Forall (fun kp => pset_below n (snd kp)) (a_pols a).
Lemma reads_param (w : world F) i a p q b : nth_error (w_ants w) i = Some a -> good_names (map fst (a_pols a)) ->
  ant_fits (List.length (w_heap w)) a -> Forall (fun kp => 2 <= List.length (content (w_heap w) (p_off (snd kp)))) (a_pols a) ->
  In (p, q) (a_pols a) -> In b bases -> reads w i (name b p) = shows (w_heap w) q b.
Proof.
  intros E GN FT L2 HI HB. unfold reads, ant_get. rewrite E.
  assert (ND : NoDup (map fst (a_pols a))) by (destruct GN as [->|[? ?]]; auto; constructor; [intros [] | constructor]).
  assert (G := psets_get_spec (a_pols a) (w_heap w) FT L2 ND ltac:(destruct GN; tauto) p q b HI HB).
  assert (X : existsb (fun kp => List.length (content (w_heap w) (p_off (snd kp))) <? 2) (a_pols a) = false).
  { clear -L2. induction L2; auto. cbn [existsb]. rewrite IHL2. destruct (Nat.ltb_spec (List.length (content (w_heap w) (p_off (snd x)))) 2); [lia|auto]. }
  destruct (psets_get (w_heap w) (a_pols a)) as [h d]. rewrite X. rewrite choose_one by (apply name_star; auto).
  cbn [app lookup fst snd w_heap] in *. 
  assert (NX : forall k, In k ["x"; "y"; "z"]%string -> String.eqb (name b p) k = false).
  { intros k HK. apply String.eqb_neq. apply name_xyz; auto. }
  rewrite !NX by (simpl; tauto). rewrite <- G. destruct (lookup (name b p) d) as [[x|l]|]; reflexivity.
Qed.
Lemma reads_xyz (w : world F) i a : nth_error (w_ants w) i = Some a ->
  Forall (fun kp => 2 <= List.length (content (w_heap w) (p_off (snd kp)))) (a_pols a) ->
  reads w i "x" = Some (VNum (a_x a)) /\ reads w i "y" = Some (VNum (a_y a)) /\ reads w i "z" = Some (VNum (a_z a)).
Proof.
  intros E L2. unfold reads, ant_get. rewrite E.
  assert (X : existsb (fun kp => List.length (content (w_heap w) (p_off (snd kp))) <? 2) (a_pols a) = false).
  { clear -L2. induction L2; auto. cbn [existsb]. rewrite IHL2. destruct (Nat.ltb_spec (List.length (content (w_heap w) (p_off (snd x)))) 2); [lia|auto]. }
  destruct (psets_get (w_heap w) (a_pols a)) as [h d]. rewrite X. auto.
Qed.
End A.
