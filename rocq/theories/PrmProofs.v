From Verif Require Import Base ScriptModel ScriptSpec ScriptProofs PrmModel PrmSpec.
From Coq Require Import Ascii String.
Ltac Zify.zify_post_hook ::= idtac.
Open Scope nat_scope.
Local Notation length := List.length.

Lemma special_in c : special c = true <-> In c ["("; "/"; ","; ")"; "="]%char.
Proof.
  unfold special. rewrite !Bool.orb_true_iff, !ceqb_eq. cbn [In]. split; intros H.
  - destruct H as [[[[->| ->]| ->]| ->]| ->]; tauto.
  - destruct H as [<-|[<-|[<-|[<-|[<-|[]]]]]]; tauto.
Qed.
Lemma special_not c : special c = false <-> ~ In c ["("; "/"; ","; ")"; "="]%char.
Proof. rewrite <- special_in. destruct (special c); intuition congruence. Qed.

Definition stops (r : str) : Prop := match r with [] => True | c :: _ => special c = true end.

Lemma span_ok n r : Forall (fun c => special c = false) n -> stops r -> span_name (n ++ r) = (n, r).
Proof.
  intros Hn Hr. induction Hn as [|c n Hc Hn IH]; cbn [app span_name].
  - destruct r as [|c r]; [reflexivity|]. cbn [stops] in Hr. cbn [span_name]. now rewrite Hr.
  - rewrite Hc, IH. reflexivity.
Qed.
Lemma name_chars n : name_ok n -> Forall (fun c => special c = false) n.
Proof. intros [_ H]. apply Forall_forall. intros c Hc. apply special_not. auto. Qed.
Lemma re_name_ok n r : name_ok n -> stops r -> re_name (n ++ r) = Some (n, r).
Proof.
  intros H Hr. unfold re_name. rewrite span_ok by (auto using name_chars). destruct H as [H _]. destruct n; congruence.
Qed.
Lemma span_inv s : forall n r, span_name s = (n, r) -> s = n ++ r /\ Forall (fun c => special c = false) n /\ stops r.
Proof.
  induction s as [|c s IH]; cbn [span_name]; intros n r H.
  - inversion H; subst. repeat split; constructor.
  - destruct (special c) eqn:C.
    + inversion H; subst. repeat split; [constructor|exact C].
    + destruct (span_name s) as [n1 t] eqn:E. inversion H; subst. destruct (IH _ _ eq_refl) as (A & B & D).
      subst. repeat split; auto.
Qed.
Lemma re_name_inv s n r : re_name s = Some (n, r) -> s = n ++ r /\ name_ok n /\ stops r.
Proof.
  unfold re_name. destruct (span_name s) as [m t] eqn:E. intros H.
  destruct m as [|c m]; [discriminate|]. inversion H; subst. destruct (span_inv _ _ _ E) as (A & B & D).
  split; [exact A|]. split; [|exact D]. split; [discriminate|]. intros x Hx. apply special_not.
  rewrite Forall_forall in B. auto.
Qed.

(* "/n1/n2..." *)
Definition slashed (l : list str) : str := flat_map (fun n => "/"%char :: n) l.
Lemma join_slashed n l : join "/"%char (n :: l) = n ++ slashed l.
Proof.
  revert n. induction l as [|m l IH]; intros n; cbn [slashed flat_map].
  - cbn. now rewrite app_nil_r.
  - change (join "/"%char (n :: m :: l)) with (n ++ "/"%char :: join "/"%char (m :: l)). rewrite IH. reflexivity.
Qed.
Lemma slashed_stops l r : stops r -> stops (slashed l ++ r).
Proof. destruct l; cbn; auto. Qed.

Lemma re_more_ok l : forall fuel r, Forall name_ok l -> length l <= fuel -> (match r with [] => True | c :: _ => special c = true /\ c <> "/"%char end) ->
  re_more fuel (slashed l ++ r) = (slashed l, r).
Proof.
  induction l as [|n l IH]; intros fuel r Hl Hf Hr.
  - cbn [slashed flat_map app]. destruct fuel; cbn [re_more]; [reflexivity|]. destruct r as [|c r]; [reflexivity|].
    destruct Hr as [_ Hr]. rewrite (ceqb_neq _ _ Hr). reflexivity.
  - inversion Hl as [|? ? Hn Hl']; subst. destruct fuel as [|fuel]; [cbn in Hf; lia|].
    cbn [slashed flat_map app]. fold (slashed l). cbn [re_more]. rewrite ceqb_refl.
    rewrite <- app_assoc.
    rewrite re_name_ok; [|exact Hn|apply slashed_stops; destruct r; cbn; [auto|apply Hr]].
    rewrite IH; [|exact Hl'|cbn in Hf; lia|exact Hr]. reflexivity.
Qed.

Lemma slashed_length l : Forall name_ok l -> length l <= length (slashed l).
Proof. induction 1; [cbn; lia|]. cbn [slashed flat_map length app]. fold (slashed l). rewrite app_length. lia. Qed.

Lemma name_free n c : special c = true -> name_ok n -> free c n.
Proof.
  intros Hc [_ H]. unfold free. intros X. apply (H c X). apply special_in. exact Hc.
Qed.

Lemma re_grp_ok s l r : names_text s l -> stops r -> exists g, re_grp (s ++ r) = Some (g, r) /\ names_of g = l.
Proof.
  intros H Hr. destruct H as [n Hn|l Hl Fl].
  - exists (GName n). unfold re_grp. rewrite re_name_ok by auto. auto.
  - exists (GList (join "/"%char l)). split.
    + unfold re_grp, re_name. cbn [app span_name]. change (special "("%char) with true. cbv iota. rewrite ceqb_refl.
      destruct l as [|n l]; [congruence|]. inversion Fl as [|? ? Hn Fl']; subst.
      rewrite join_slashed, <- !app_assoc. cbn [app].
      fold (re_name (n ++ slashed l ++ ")"%char :: r)).
      change (match span_name (n ++ slashed l ++ ")"%char :: r) with ([], _) => None | p => Some p end)
        with (re_name (n ++ slashed l ++ ")"%char :: r)).
      rewrite re_name_ok; [|exact Hn|apply slashed_stops; reflexivity].
      rewrite re_more_ok; [rewrite ceqb_refl; reflexivity|exact Fl'| |split; [reflexivity|discriminate]].
      rewrite app_length. pose proof (slashed_length l Fl'). lia.
    + cbn [names_of]. apply split_join; [exact Hl|]. eapply Forall_impl; [|exact Fl]. intros n. apply name_free. reflexivity.
Qed.

Lemma re_more_inv fuel : forall s t r, re_more fuel s = (t, r) ->
  exists l, t = slashed l /\ Forall name_ok l /\ s = t ++ r.
Proof.
  induction fuel as [|fuel IH]; intros s t r H; cbn [re_more] in H.
  - inversion H; subst. exists []. repeat split. constructor.
  - destruct s as [|c s]; [inversion H; subst; exists []; repeat split; constructor|].
    destruct (ceqb c "/"%char) eqn:C; [|inversion H; subst; exists []; repeat split; constructor].
    apply ceqb_eq in C. subst c.
    destruct (re_name s) as [[n r1]|] eqn:E; [|inversion H; subst; exists []; repeat split; constructor].
    destruct (re_more fuel r1) as [t' r2] eqn:M. inversion H; subst.
    destruct (IH _ _ _ M) as (l & A & B & D). destruct (re_name_inv _ _ _ E) as (E1 & E2 & _).
    exists (n :: l). split; [cbn; rewrite A; reflexivity|]. split; [constructor; auto|]. subst. cbn. now rewrite <- app_assoc.
Qed.

Lemma re_grp_inv s g r : re_grp s = Some (g, r) -> exists t, names_text t (names_of g) /\ s = t ++ r.
Proof.
  unfold re_grp. destruct (re_name s) as [[n r1]|] eqn:E.
  - intros H. inversion H; subst. destruct (re_name_inv _ _ _ E) as (E1 & E2 & _). exists n. split; [constructor; auto|auto].
  - destruct s as [|c s]; [discriminate|]. destruct (ceqb c "("%char) eqn:C; [|discriminate]. apply ceqb_eq in C. subst c.
    destruct (re_name s) as [[n r1]|] eqn:E'; [|discriminate]. destruct (re_name_inv _ _ _ E') as (E1 & E2 & _).
    destruct (re_more (length r1) r1) as [t r2] eqn:M. destruct r2 as [|d r3]; [discriminate|].
    destruct (ceqb d ")"%char) eqn:D; [|discriminate]. apply ceqb_eq in D. subst d. intros H. inversion H; subst.
    destruct (re_more_inv _ _ _ _ M) as (l & A & B & X). subst t.
    assert (J : n ++ slashed l = join "/"%char (n :: l)) by (symmetry; apply join_slashed).
    assert (FL : Forall name_ok (n :: l)) by (constructor; auto).
    assert (SJ : split "/"%char (join "/"%char (n :: l)) = n :: l).
    { apply split_join; [discriminate|]. eapply Forall_impl; [|exact FL]. intros m. apply name_free. reflexivity. }
    exists ("("%char :: join "/"%char (n :: l) ++ [")"%char]). split.
    + cbn [names_of]. rewrite J, SJ. constructor; [discriminate|exact FL].
    + rewrite X. rewrite <- J. cbn [app]. f_equal. rewrite <- !app_assoc. reflexivity.
Qed.

Lemma names_text_ne s l : names_text s l -> 1 <= length l.
Proof. destruct 1; cbn; [lia|]. destruct l; [congruence|cbn; lia]. Qed.
Lemma times_repeat {A} (x : A) n : times [x] n = repeat x n.
Proof. unfold times. induction n; cbn; congruence. Qed.
Lemma map_seq_const {A} (x : A) n : forall k, map (fun _ => x) (seq k n) = repeat x n.
Proof. induction n; intros k; cbn; congruence. Qed.
Lemma map_seq_nth {A} (l : list A) d : map (fun i => nth i l d) (seq 0 (length l)) = l.
Proof.
  induction l as [|x l IH]; [reflexivity|]. cbn [length seq map nth]. f_equal. rewrite <- seq_shift, map_map. exact IH.
Qed.
Lemma map_seq_err {A} (l : list A) : map (fun i => nth_error l i) (seq 0 (length l)) = map Some l.
Proof.
  induction l as [|x l IH]; [reflexivity|]. cbn [length seq map nth_error]. f_equal. rewrite <- seq_shift, map_map. exact IH.
Qed.
Lemma str_eqb_eq a : forall b, str_eqb a b = true <-> a = b.
Proof.
  induction a as [|x a IH]; intros [|y b]; cbn [str_eqb]; try (split; congruence).
  rewrite Bool.andb_true_iff, ceqb_eq, IH. split; [intros [-> ->]; auto|intros H; inversion H; auto].
Qed.
Lemma dget_dset {A} (d : list (str * A)) k x m : dget (dset d k x) m = if str_eqb k m then Some x else dget d m.
Proof.
  induction d as [|[n y] d IH]; cbn [dset dget].
  - reflexivity.
  - destruct (str_eqb n k) eqn:E; cbn [dget].
    + apply str_eqb_eq in E. subst n. destruct (str_eqb k m); reflexivity.
    + rewrite IH. destruct (str_eqb n m) eqn:N; [|reflexivity]. apply str_eqb_eq in N. subst n.
      destruct (str_eqb k m) eqn:K; [|reflexivity]. apply str_eqb_eq in K. subst k.
      assert (str_eqb m m = true) by (apply str_eqb_eq; auto). congruence.
Qed.
Lemma combine_map2 {A B C} (f : A -> B) (g : A -> C) l : combine (map f l) (map g l) = map (fun x => (f x, g x)) l.
Proof. induction l; cbn; congruence. Qed.
Lemma flat_map_map {A B C} (f : A -> B) (g : B -> list C) l : flat_map g (map f l) = flat_map (fun x => g (f x)) l.
Proof. induction l; cbn; congruence. Qed.
Lemma flat_map_ext' {A B} (f g : A -> list B) l : (forall a, f a = g a) -> flat_map f l = flat_map g l.
Proof. intros H. induction l; cbn; [auto|]. now rewrite H, IHl. Qed.
Lemma names_text_comma s l : names_text s l -> free ","%char s.
Proof.
  intros H. destruct H as [n Hn|l Hl Fl].
  - apply name_free; [reflexivity|exact Hn].
  - unfold free. intros [X|X]; [discriminate|]. apply in_app_or in X as [X|[X|[]]]; [|discriminate].
    revert X. change (free ","%char (join "/"%char l)). apply join_free; [discriminate|].
    eapply Forall_impl; [|exact Fl]. intros n. apply name_free. reflexivity.
Qed.
Lemma free_app c a b : free c a -> free c b -> free c (a ++ b).
Proof. unfold free. intros A B X. apply in_app_or in X. tauto. Qed.
Lemma free_cons c d a : d <> c -> free c a -> free c (d :: a).
Proof. unfold free. intros A B [X|X]; auto. Qed.

Section P.
Variable F : Type.
Variable tofloat : str -> option F.

Lemma vals_of_names g : vals_of F tofloat (Some g) = bind (map_res (float F tofloat) (names_of g)) (fun l => Ok (map Some l)).
Proof. destruct g; cbn [vals_of names_of map_res]; [|reflexivity]. destruct (float F tofloat n); reflexivity. Qed.

Definition vals_as (g : option grp) (l : option (list F)) : Prop :=
  vals_of F tofloat g = Ok (match l with None => [None] | Some l => map Some l end).

Lemma vals_ok g ts l : names_of g = ts -> Forall2 (fun t x => tofloat t = Some x) ts l -> vals_as (Some g) (Some l).
Proof.
  intros <- H. unfold vals_as. rewrite vals_of_names.
  rewrite (map_res_ok _ _ l); [reflexivity|]. revert H. generalize (names_of g) as ns.
  induction 1; constructor; auto. unfold float. now rewrite H.
Qed.

Lemma vals_inv g iv : vals_of F tofloat g = Ok iv ->
  (g = None /\ iv = [None]) \/ exists g' l, g = Some g' /\ iv = map Some l /\ Forall2 (fun t x => tofloat t = Some x) (names_of g') l.
Proof.
  destruct g as [g'|]; [|cbn; intros H; inversion H; auto]. rewrite vals_of_names. intros H. right.
  destruct (map_res (float F tofloat) (names_of g')) as [l|] eqn:E; [|discriminate]. cbn [bind] in H. inversion H; subst.
  exists g', l. split; auto. split; auto. apply map_res_inv in E. revert E. generalize (names_of g') as ns.
  induction 1; constructor; auto. unfold float in H0. destruct (tofloat x); inversion H0; auto.
Qed.

Definition denotes (m : match_) (a : assign F) : Prop :=
  names_of (m_obj m) = a_objs F a /\ names_of (m_prm m) = a_prms F a /\
  vals_as (m_val m) (a_vals F a) /\ vals_as (m_sig m) (a_sigs F a).

Lemma re_grp_nil : re_grp [] = None. Proof. reflexivity. Qed.
Lemma re_grp_slash r : re_grp ("/"%char :: r) = None. Proof. reflexivity. Qed.

Lemma re_prm_ok s a : assign_text F tofloat s a -> exists m, re_prm s = Some m /\ denotes m a.
Proof.
  intros H. destruct H as [o p t os ps v sg Ho Hp Ht]. unfold re_prm.
  destruct (re_grp_ok o os ("="%char :: p ++ t) Ho) as (go & E1 & N1); [reflexivity|]. rewrite E1, ceqb_refl.
  assert (ST : stops t) by (destruct Ht; cbn; auto).
  destruct (re_grp_ok p ps t Hp ST) as (gp & E2 & N2). rewrite E2.
  unfold denotes. destruct Ht as [| |v l (ts & T1 & T2)|v l (ts & T1 & T2)|v l s m (ts & T1 & T2) (us & U1 & U2)|s m (us & U1 & U2)|].
  - eexists; split; [reflexivity|]. cbn. repeat split; auto.
  - rewrite ceqb_refl, re_grp_nil. eexists; split; [reflexivity|]. cbn. repeat split; auto.
  - rewrite ceqb_refl. destruct (re_grp_ok v ts [] T1 I) as (gv & E3 & N3). rewrite app_nil_r in E3. rewrite E3.
    eexists; split; [reflexivity|]. cbn. repeat split; auto. eapply vals_ok; eauto.
  - rewrite ceqb_refl. destruct (re_grp_ok v ts ["/"%char] T1) as (gv & E3 & N3); [reflexivity|]. rewrite E3, ceqb_refl, re_grp_nil.
    eexists; split; [reflexivity|]. cbn. repeat split; auto. eapply vals_ok; eauto.
  - rewrite ceqb_refl. destruct (re_grp_ok v ts ("/"%char :: s) T1) as (gv & E3 & N3); [reflexivity|]. rewrite E3, ceqb_refl.
    destruct (re_grp_ok s us [] U1 I) as (gs & E4 & N4). rewrite app_nil_r in E4. rewrite E4.
    eexists; split; [reflexivity|]. cbn. repeat split; auto; eapply vals_ok; eauto.
  - rewrite ceqb_refl, re_grp_slash, ceqb_refl.
    destruct (re_grp_ok s us [] U1 I) as (gs & E4 & N4). rewrite app_nil_r in E4. rewrite E4.
    eexists; split; [reflexivity|]. cbn. repeat split; auto; eapply vals_ok; eauto.
  - rewrite ceqb_refl, re_grp_slash, ceqb_refl, re_grp_nil. eexists; split; [reflexivity|]. cbn. repeat split; auto.
Qed.

Lemma re_prm_inv s m iv sv : re_prm s = Some m -> vals_of F tofloat (m_val m) = Ok iv -> vals_of F tofloat (m_sig m) = Ok sv ->
  exists t junk a, s = t ++ junk /\ assign_text F tofloat t a /\ denotes m a.
Proof.
  unfold re_prm. destruct (re_grp s) as [[o [|c r]]|] eqn:E1; try discriminate.
  destruct (ceqb c "="%char) eqn:C; [|discriminate]. apply ceqb_eq in C. subst c.
  destruct (re_grp r) as [[p r2]|] eqn:E2; [|discriminate].
  destruct (re_grp_inv _ _ _ E1) as (to & NO & SO). destruct (re_grp_inv _ _ _ E2) as (tp & NP & SP). subst s r.
  assert (BASE : forall mv ms, m_obj (Match o p mv ms) = o /\ m_prm (Match o p mv ms) = p) by auto.
  assert (NONE : forall m0, m_obj m0 = o -> m_prm m0 = p -> m_val m0 = None -> m_sig m0 = None ->
    exists t junk a, to ++ "="%char :: tp ++ r2 = t ++ junk /\ assign_text F tofloat t a /\ denotes m0 a).
  { intros m0 A B D E. exists (to ++ "="%char :: tp ++ []), r2, (Assign F (names_of o) (names_of p) None None).
    split; [rewrite <- app_assoc; cbn [app]; rewrite app_nil_r; reflexivity|]. split; [constructor; auto; constructor|].
    unfold denotes. rewrite A, B, D, E. cbn. repeat split; reflexivity. }
  destruct r2 as [|d r3].
  { intros H _ _. inversion H; subst. apply NONE; reflexivity. }
  destruct (ceqb d "/"%char) eqn:D; [apply ceqb_eq in D; subst d|intros H _ _; inversion H; subst; apply NONE; reflexivity].
  assert (VS : forall g iv, vals_of F tofloat (Some g) = Ok iv -> exists l, Forall2 (fun t x => tofloat t = Some x) (names_of g) l /\ vals_as (Some g) (Some l)).
  { intros g iv0 H. destruct (vals_inv _ _ H) as [[X _]|(g' & l & A & B & X)]; [discriminate|]. inversion A; subst g'.
    exists l. split; [exact X|]. unfold vals_as. rewrite H, B. reflexivity. }
  destruct (re_grp r3) as [[gv r4]|] eqn:E3.
  - destruct (re_grp_inv _ _ _ E3) as (tv & NV & SV). subst r3.
    assert (ONLY : forall m0, m_obj m0 = o -> m_prm m0 = p -> m_val m0 = Some gv -> m_sig m0 = None ->
      vals_of F tofloat (Some gv) = Ok iv ->
      exists t junk a, to ++ "="%char :: tp ++ "/"%char :: tv ++ r4 = t ++ junk /\ assign_text F tofloat t a /\ denotes m0 a).
    { intros m0 A B X Y H. destruct (VS _ _ H) as (l & L1 & L2).
      exists (to ++ "="%char :: tp ++ "/"%char :: tv), r4, (Assign F (names_of o) (names_of p) (Some l) None).
      split; [rewrite <- !app_assoc; cbn [app]; rewrite <- !app_assoc; reflexivity|].
      split; [constructor; auto; constructor; exists (names_of gv); auto|].
      unfold denotes. rewrite A, B, X, Y. cbn [a_objs a_prms a_vals a_sigs]. repeat split; auto. }
    destruct r4 as [|e r5].
    + intros H H1 _. inversion H; subst. cbn [m_val] in H1. apply ONLY; auto.
    + destruct (ceqb e "/"%char) eqn:D; [apply ceqb_eq in D; subst e|intros H H1 _; inversion H; subst; cbn [m_val] in H1; apply ONLY; auto].
      destruct (re_grp r5) as [[gs r6]|] eqn:E4; cbn [option_map fst]; [|intros H H1 _; inversion H; subst; cbn [m_val] in H1; apply ONLY; auto].
      destruct (re_grp_inv _ _ _ E4) as (ts & NS & SS). subst r5.
      intros H H1 H2. inversion H; subst. cbn [m_val m_sig] in H1, H2.
      destruct (VS _ _ H1) as (l & L1 & L2). destruct (VS _ _ H2) as (k & K1 & K2).
      exists (to ++ "="%char :: tp ++ "/"%char :: tv ++ "/"%char :: ts), r6, (Assign F (names_of o) (names_of p) (Some l) (Some k)).
      split; [rewrite <- !app_assoc; cbn [app]; rewrite <- !app_assoc; cbn [app]; rewrite <- app_assoc; reflexivity|].
      split; [constructor; auto; constructor; [exists (names_of gv); auto|exists (names_of gs); auto]|].
      unfold denotes. cbn. repeat split; auto.
  - destruct r3 as [|e r5].
    { intros H _ _. inversion H; subst. apply NONE; reflexivity. }
    destruct (ceqb e "/"%char) eqn:D; [apply ceqb_eq in D; subst e|intros H _ _; inversion H; subst; apply NONE; reflexivity].
    destruct (re_grp r5) as [[gs r6]|] eqn:E4; cbn [option_map fst]; [|intros H _ _; inversion H; subst; apply NONE; reflexivity].
    destruct (re_grp_inv _ _ _ E4) as (ts & NS & SS). subst r5.
    intros H _ H2. inversion H; subst. cbn [m_sig] in H2. destruct (VS _ _ H2) as (k & K1 & K2).
    exists (to ++ "="%char :: tp ++ "/"%char :: "/"%char :: ts), r6, (Assign F (names_of o) (names_of p) None (Some k)).
    split; [rewrite <- !app_assoc; cbn [app]; rewrite <- !app_assoc; reflexivity|].
    split; [constructor; auto; constructor; exists (names_of gs); auto|].
    unfold denotes. cbn. repeat split; auto.
Qed.

(* ---- shapes ---- *)
Definition listed (l : option (list F)) : list (option F) := match l with None => [None] | Some l => map Some l end.
Definition grid (nobj nprm : nat) (l : option (list F)) : list (list (option F)) :=
  map (fun i => map (fun j => pick F nobj l i j) (seq 0 nprm)) (seq 0 nobj).


(* one number for all *)
Lemma grid_one x nobj nprm l : (l = None /\ x = None) \/ (exists y, l = Some [y] /\ x = Some y) ->
  grid nobj nprm l = repeat (repeat x nprm) nobj.
Proof.
  intros H. unfold grid. rewrite <- (map_seq_const (repeat x nprm) nobj 0). apply map_ext. intros i.
  rewrite <- (map_seq_const x nprm 0). apply map_ext. intros j. destruct H as [[-> ->]|(y & -> & ->)]; reflexivity.
Qed.

Lemma one_listed l : length (listed l) = 1 -> exists x, listed l = [x] /\ ((l = None /\ x = None) \/ (exists y, l = Some [y] /\ x = Some y)).
Proof.
  destruct l as [[|y [|z l]]|]; cbn; intros H; try discriminate; [exists (Some y)|exists None]; split; eauto.
Qed.

Lemma grid_objs nobj l : nobj <> 1 -> length (one_or (listed l) nobj) = nobj -> map (fun i => [i]) (one_or (listed l) nobj) = grid nobj 1 l.
Proof.
  intros N. unfold one_or. destruct (Nat.eqb_spec (length (listed l)) 1) as [E|E].
  - destruct (one_listed l E) as (x & X & O). rewrite X, times_repeat, (grid_one x) by auto. intros _.
    cbn [repeat]. clear. induction nobj; cbn; congruence.
  - destruct l as [l|]; [|cbn in E; lia]. cbn [listed] in *. rewrite map_length in *. intros L. unfold grid.
    cbn [seq map]. rewrite <- L at 1. rewrite <- map_seq_err, map_map. rewrite L. apply map_ext_in. intros i Hi. f_equal. unfold pick.
    destruct (Nat.eqb_spec nobj 1); [lia|]. destruct l as [|a [|b l]]; auto. cbn in E. lia.
Qed.
Lemma grid_prms nprm l : nprm <> 1 -> length (one_or (listed l) nprm) = nprm -> [one_or (listed l) nprm] = grid 1 nprm l.
Proof.
  intros N. unfold one_or. destruct (Nat.eqb_spec (length (listed l)) 1) as [E|E].
  - destruct (one_listed l E) as (x & X & O). rewrite X, times_repeat, (grid_one x) by auto. reflexivity.
  - destruct l as [l|]; [|cbn in E; lia]. cbn [listed] in *. rewrite map_length in *. intros L. unfold grid.
    cbn [seq map]. f_equal. rewrite <- map_seq_err. rewrite L. apply map_ext_in. intros i Hi. unfold pick.
    rewrite Nat.eqb_refl. destruct l as [|a [|b l]]; auto. cbn in E. lia.
Qed.

Lemma shape_spec nobj nprm v s q : 1 <= nobj -> 1 <= nprm ->
  shape F nobj nprm (listed v) (listed s) = Ok q -> q = (grid nobj nprm v, grid nobj nprm s).
Proof.
  intros O P. unfold shape. destruct (Nat.eqb_spec nobj 1) as [->|NO]; cbn [negb].
  - destruct (Nat.eqb_spec nprm 1) as [->|NP]; cbn [negb].
    + destruct (Nat.eqb_spec (length (listed v)) 1); [|discriminate]. destruct (Nat.eqb_spec (length (listed s)) 1); [|discriminate].
      cbn [andb]. intros H. inversion H; subst. destruct (one_listed v e) as (x & -> & X). destruct (one_listed s e0) as (y & -> & Y).
      rewrite (grid_one x), (grid_one y) by auto. reflexivity.
    + destruct (Nat.eqb_spec (length (one_or (listed v) nprm)) nprm); [|discriminate].
      destruct (Nat.eqb_spec (length (one_or (listed s) nprm)) nprm); [|discriminate].
      cbn [andb]. intros H. inversion H; subst. rewrite (grid_prms nprm v), (grid_prms nprm s) by auto. reflexivity.
  - destruct (Nat.eqb_spec nprm 1) as [->|NP]; cbn [negb].
    + destruct (Nat.eqb_spec (length (one_or (listed v) nobj)) nobj); [|discriminate].
      destruct (Nat.eqb_spec (length (one_or (listed s) nobj)) nobj); [|discriminate].
      cbn [andb]. intros H. inversion H; subst. rewrite (grid_objs nobj v), (grid_objs nobj s) by auto. reflexivity.
    + destruct (Nat.eqb_spec (length (listed v)) 1); [|discriminate]. destruct (Nat.eqb_spec (length (listed s)) 1); [|discriminate].
      cbn [andb]. intros H. inversion H; subst. destruct (one_listed v e) as (x & -> & X). destruct (one_listed s e0) as (y & -> & Y).
      rewrite (grid_one x), (grid_one y), !times_repeat by auto. reflexivity.
Qed.

Lemma one_or_count nobj nprm n l : count_ok F nobj nprm l -> 1 <= n -> (nprm = 1 /\ nobj = n \/ nobj = 1 /\ nprm = n) ->
  (length (one_or (listed l) n) =? n) = true.
Proof.
  intros C N H. apply Nat.eqb_eq. unfold one_or. destruct (Nat.eqb_spec (length (listed l)) 1) as [E|E].
  - destruct (one_listed l E) as (x & -> & _). rewrite times_repeat. apply repeat_length.
  - destruct l as [l|]; [|cbn in E; lia]. cbn [listed count_ok] in *. rewrite map_length in *. lia.
Qed.
Lemma one_count nobj nprm l : count_ok F nobj nprm l -> (nobj = 1 /\ nprm = 1 \/ nobj <> 1 /\ nprm <> 1) -> (length (listed l) =? 1) = true.
Proof. intros C H. apply Nat.eqb_eq. destruct l as [l|]; [|reflexivity]. cbn [listed count_ok] in *. rewrite map_length. lia. Qed.

Lemma shape_ok nobj nprm v s : 1 <= nobj -> 1 <= nprm -> count_ok F nobj nprm v -> count_ok F nobj nprm s ->
  shape F nobj nprm (listed v) (listed s) = Ok (grid nobj nprm v, grid nobj nprm s).
Proof.
  intros O P V S.
  assert (E : exists q, shape F nobj nprm (listed v) (listed s) = Ok q).
  { unfold shape. destruct (Nat.eqb_spec nobj 1) as [->|NO]; cbn [negb]; destruct (Nat.eqb_spec nprm 1) as [->|NP]; cbn [negb].
    - rewrite !(one_count 1 1) by auto. cbn. eauto.
    - rewrite !(one_or_count 1 nprm) by auto. cbn. eauto.
    - rewrite !(one_or_count nobj 1) by auto. cbn. eauto.
    - rewrite !(one_count nobj nprm) by auto. cbn. eauto. }
  destruct E as [q E]. rewrite E. f_equal. eapply shape_spec; eauto.
Qed.

(* accepted shapes are the documented ones *)
Lemma shape_inv nobj nprm v s q : 1 <= nobj -> 1 <= nprm ->
  shape F nobj nprm (listed v) (listed s) = Ok q -> count_ok F nobj nprm v /\ count_ok F nobj nprm s.
Proof.
  intros O P.
  assert (K1 : forall l, (length (listed l) =? 1) = true -> count_ok F nobj nprm l).
  { intros l H. apply Nat.eqb_eq in H. destruct l as [l|]; [|exact I]. cbn in *. rewrite map_length in H. auto. }
  assert (K2 : forall l n, (length (one_or (listed l) n) =? n) = true -> (nprm = 1 /\ nobj = n \/ nobj = 1 /\ nprm = n) -> count_ok F nobj nprm l).
  { intros l n H D. apply Nat.eqb_eq in H. destruct l as [l|]; [|exact I]. unfold one_or in H. cbn [listed count_ok] in *.
    rewrite map_length in H. destruct (Nat.eqb_spec (length l) 1); [auto|]. rewrite map_length in H. lia. }
  unfold shape. destruct (Nat.eqb_spec nobj 1) as [->|NO]; cbn [negb]; destruct (Nat.eqb_spec nprm 1) as [->|NP]; cbn [negb];
    match goal with |- (if ?a && ?b then _ else _) = _ -> _ => destruct a eqn:A; [|discriminate]; destruct b eqn:B; [|discriminate] end;
    intros _; split; eauto.
Qed.

(* ---- dictionaries ---- *)

Notation vs := (option F * option F)%type.
Definition look2 (d : pdict F) (o p : str) : option vs :=
  match dget d o with Some e => dget e p | None => None end.

Fixpoint lastk (l : list (str * vs)) (p : str) : option vs :=
  match l with
  | [] => None
  | (q, x) :: r => match lastk r p with Some y => Some y | None => if str_eqb q p then Some x else None end
  end.
Lemma store_prms_get d l p : dget (fold_left (fun d x => dset d (fst x) (snd x)) l d) p =
  match lastk l p with Some y => Some y | None => dget d p end.
Proof.
  revert d. induction l as [|[q x] l IH]; intros d; cbn [fold_left lastk]; [reflexivity|].
  rewrite IH, dget_dset. cbn [fst snd]. destruct (lastk l p); auto. destruct (str_eqb q p); auto.
Qed.

Lemma last_setting_app a b o p : last_setting F (a ++ b) o p =
  match last_setting F b o p with Some y => Some y | None => last_setting F a o p end.
Proof.
  induction a as [|[[o' p'] x] a IH]; cbn [app last_setting]; [destruct (last_setting F b o p); auto|].
  rewrite IH. destruct (last_setting F b o p); auto.
Qed.
Lemma dec_eqb {B} (a b : str) (x y : B) : (if list_eq_dec ascii_dec a b then x else y) = if str_eqb a b then x else y.
Proof.
  destruct (list_eq_dec ascii_dec a b) as [->|N]; [rewrite (proj2 (str_eqb_eq b b) eq_refl); auto|].
  destruct (str_eqb a b) eqn:E; auto. apply str_eqb_eq in E. congruence.
Qed.
Lemma last_setting_one o' l o p : last_setting F (map (fun x => (o', fst x, snd x)) l) o p = if str_eqb o' o then lastk l p else None.
Proof.
  induction l as [|[q x] l IH]; cbn [map last_setting lastk fst snd].
  - destruct (str_eqb o' o); reflexivity.
  - rewrite IH, !dec_eqb. destruct (str_eqb o' o); [|reflexivity]. reflexivity.
Qed.

Definition srow (ps : list str) (x : str * (list (option F) * list (option F))) : list (str * str * vs) :=
  map (fun y => (fst x, fst y, snd y)) (combine ps (combine (fst (snd x)) (snd (snd x)))).
Lemma store_get ps L o p : forall d, look2 (fold_left (fun d x => let '(o, (is, ss)) := x in
               dset d o (store_prms F (match dget d o with Some e => e | None => [] end) ps is ss)) L d) o p =
  match last_setting F (flat_map (srow ps) L) o p with Some y => Some y | None => look2 d o p end.
Proof.
  induction L as [|[o' [is ss]] L IH]; intros d; cbn [fold_left flat_map]; [reflexivity|].
  rewrite IH, last_setting_app. destruct (last_setting F (flat_map (srow ps) L) o p); auto.
  unfold srow at 1. cbn [fst snd]. rewrite last_setting_one. unfold look2. rewrite dget_dset.
  destruct (str_eqb o' o) eqn:E; [|reflexivity]. apply str_eqb_eq in E. subst o'.
  unfold store_prms. rewrite store_prms_get. destruct (lastk _ p); auto. destruct (dget d o); auto.
Qed.


Lemma store_spec d (a : assign F) o p :
  look2 (store F d (a_objs F a) (a_prms F a) (grid (length (a_objs F a)) (length (a_prms F a)) (a_vals F a))
          (grid (length (a_objs F a)) (length (a_prms F a)) (a_sigs F a))) o p =
  match last_setting F (settings F a) o p with Some y => Some y | None => look2 d o p end.
Proof.
  unfold store. rewrite store_get. destruct a as [os ps v s]. cbn [a_objs a_prms a_vals a_sigs].
  assert (E : flat_map (srow ps) (combine os (combine (grid (length os) (length ps) v) (grid (length os) (length ps) s))) =
              settings F (Assign F os ps v s)); [|now rewrite E].
  unfold grid. rewrite combine_map2. rewrite <- (map_seq_nth os []) at 1. rewrite combine_map2, flat_map_map.
  unfold settings. cbn [a_objs a_prms a_vals a_sigs]. apply flat_map_ext'. intros i.
  unfold srow. cbn [fst snd]. rewrite combine_map2. rewrite <- (map_seq_nth ps []) at 1. rewrite combine_map2, map_map. reflexivity.
Qed.


Lemma item_ok d s a : assign_text F tofloat s a -> assign_ok F a ->
  exists d', parse_item F tofloat d s = Ok d' /\
    forall o p, look2 d' o p = match last_setting F (settings F a) o p with Some y => Some y | None => look2 d o p end.
Proof.
  intros T [V S]. destruct (re_prm_ok _ _ T) as (m & E & (D1 & D2 & D3 & D4)). unfold parse_item. rewrite E, D1, D2.
  unfold vals_as in *. rewrite D3, D4. cbn [bind].
  change (match a_vals F a with None => [None] | Some l => map Some l end) with (listed (a_vals F a)).
  change (match a_sigs F a with None => [None] | Some l => map Some l end) with (listed (a_sigs F a)).
  rewrite shape_ok; auto; [|destruct T as [? ? ? ? ? ? ? X1 X2]; apply names_text_ne in X1; exact X1
    |destruct T as [? ? ? ? ? ? ? X1 X2]; apply names_text_ne in X2; exact X2].
  cbn [bind fst snd]. eexists. split; [reflexivity|]. intros o p. apply store_spec.
Qed.

Lemma item_inv d s d' : parse_item F tofloat d s = Ok d' ->
  exists t junk a, s = t ++ junk /\ assign_text F tofloat t a /\ assign_ok F a /\
    forall o p, look2 d' o p = match last_setting F (settings F a) o p with Some y => Some y | None => look2 d o p end.
Proof.
  unfold parse_item. destruct (re_prm s) as [m|] eqn:E; [|discriminate].
  destruct (vals_of F tofloat (m_val m)) as [iv|] eqn:V; [|discriminate]. cbn [bind].
  destruct (vals_of F tofloat (m_sig m)) as [sv|] eqn:S; [|discriminate]. cbn [bind].
  destruct (re_prm_inv _ _ _ _ E V S) as (t & junk & a & J & T & (D1 & D2 & D3 & D4)).
  rewrite D1, D2. unfold vals_as in *. rewrite D3 in V. rewrite D4 in S. apply (f_equal (fun r => match r with Ok x => x | Err => [] end)) in V, S.
  subst iv sv.
  change (match a_vals F a with None => [None] | Some l => map Some l end) with (listed (a_vals F a)).
  change (match a_sigs F a with None => [None] | Some l => map Some l end) with (listed (a_sigs F a)).
  assert (O : 1 <= length (a_objs F a)) by (destruct T as [? ? ? ? ? ? ? X1 X2]; apply names_text_ne in X1; exact X1).
  assert (P : 1 <= length (a_prms F a)) by (destruct T as [? ? ? ? ? ? ? X1 X2]; apply names_text_ne in X2; exact X2).
  destruct (shape F _ _ _ _) as [q|] eqn:SH; [|discriminate]. cbn [bind]. intros H.
  apply (f_equal (fun r => match r with Ok x => x | Err => [] end)) in H. subst d'.
  exists t, junk, a. split; [exact J|]. split; [exact T|]. split; [exact (shape_inv _ _ _ _ _ O P SH)|].
  rewrite (shape_spec _ _ _ _ _ O P SH). intros o p. cbn [fst snd]. apply store_spec.
Qed.

Lemma items_ok l : forall d ass, Forall2 (assign_text F tofloat) l ass -> Forall (assign_ok F) ass ->
  exists d', parse_items F tofloat d l = Ok d' /\
    forall o p, look2 d' o p = match last_setting F (flat_map (settings F) ass) o p with Some y => Some y | None => look2 d o p end.
Proof.
  induction l as [|s l IH]; intros d ass T K; inversion T as [|? a ? ass' Ta T']; subst.
  - exists d. split; reflexivity.
  - inversion K as [|? ? Ka K']; subst. cbn [parse_items]. destruct (item_ok d s a Ta Ka) as (d1 & E1 & L1). rewrite E1. cbn [bind].
    destruct (IH d1 _ T' K') as (d2 & E2 & L2). exists d2. split; [exact E2|]. intros o p. rewrite L2. cbn [flat_map].
    rewrite last_setting_app. destruct (last_setting F (flat_map (settings F) ass') o p); auto.
Qed.

Lemma items_inv l : forall d d', parse_items F tofloat d l = Ok d' ->
  exists texts junk ass, l = map (fun x => fst x ++ snd x) (combine texts junk) /\ length texts = length junk /\
    Forall2 (assign_text F tofloat) texts ass /\ Forall (assign_ok F) ass /\
    forall o p, look2 d' o p = match last_setting F (flat_map (settings F) ass) o p with Some y => Some y | None => look2 d o p end.
Proof.
  induction l as [|s l IH]; intros d d' H; cbn [parse_items] in H.
  - inversion H; subst. exists [], [], []. repeat split; constructor.
  - destruct (parse_item F tofloat d s) as [d1|] eqn:E; [|discriminate]. cbn [bind] in H.
    destruct (item_inv _ _ _ E) as (t & j & a & A1 & A2 & A3 & A4).
    destruct (IH _ _ H) as (ts & js & ass & B1 & B2 & B3 & B4 & B5).
    exists (t :: ts), (j :: js), (a :: ass). split; [cbn; rewrite <- B1, <- A1; reflexivity|]. split; [cbn; auto|].
    split; [constructor; auto|]. split; [constructor; auto|]. intros o p. rewrite B5. cbn [flat_map].
    rewrite last_setting_app. destruct (last_setting F (flat_map (settings F) ass) o p); auto.
Qed.


Lemma assign_text_comma s a : assign_text F tofloat s a -> free ","%char s.
Proof.
  intros H. destruct H as [o p t os ps v sg Ho Hp Ht].
  apply free_app; [eapply names_text_comma; eauto|]. apply free_cons; [discriminate|]. apply free_app; [eapply names_text_comma; eauto|].
  assert (E : free ","%char []) by (intros []).
  destruct Ht as [| |v l (ts & T1 & T2)|v l (ts & T1 & T2)|v l s m (ts & T1 & T2) (us & U1 & U2)|s m (us & U1 & U2)|];
    repeat match goal with H : names_text _ _ |- _ => apply names_text_comma in H end;
    repeat (first [assumption | apply free_cons; [discriminate|] | apply free_app]).
Qed.
End P.

Lemma starts_pre p : forall s, starts p s = true -> exists r, s = p ++ r.
Proof.
  induction p as [|a p IH]; intros s H; [exists s; reflexivity|]. destruct s as [|b s]; [discriminate|]. cbn [starts] in H.
  apply Bool.andb_true_iff in H as [A B]. apply ceqb_eq in A. subst b. destruct (IH _ B) as [r ->]. exists r. reflexivity.
Qed.

Lemma split_pieces c s : Forall (free c) (split c s).
Proof.
  induction s as [|x s IH]; cbn [split]; [constructor; [intros []|constructor]|].
  destruct (ceqb x c) eqn:E; [constructor; [intros []|exact IH]|].
  destruct (split c s) as [|w r]; [constructor; [|constructor]|inversion IH as [|? ? A B]; subst; constructor; [|exact B]].
  - intros [X|[]]. subst. rewrite ceqb_refl in E. discriminate.
  - intros [X|X]; [subst; rewrite ceqb_refl in E; discriminate|exact (A X)].
Qed.

Section Q.
Variable F : Type.
Variable tofloat : str -> option F.

Lemma item_bad d s a : assign_text F tofloat s a -> ~ assign_ok F a -> parse_item F tofloat d s = Err.
Proof.
  intros T N. destruct (re_prm_ok F tofloat _ _ T) as (m & E & (D1 & D2 & D3 & D4)). unfold parse_item. rewrite E, D1, D2.
  unfold vals_as in *. rewrite D3, D4. cbn [bind].
  change (match a_vals F a with None => [None] | Some l => map Some l end) with (listed F (a_vals F a)).
  change (match a_sigs F a with None => [None] | Some l => map Some l end) with (listed F (a_sigs F a)).
  destruct (shape F _ _ _ _) as [q|] eqn:SH; [|reflexivity]. exfalso. apply N.
  assert (O : 1 <= length (a_objs F a)) by (destruct T as [? ? ? ? ? ? ? X1 X2]; apply names_text_ne in X1; exact X1).
  assert (P : 1 <= length (a_prms F a)) by (destruct T as [? ? ? ? ? ? ? X1 X2]; apply names_text_ne in X2; exact X2).
  exact (shape_inv _ _ _ _ _ _ O P SH).
Qed.
Lemma items_bad l : forall d ass, Forall2 (assign_text F tofloat) l ass -> Exists (fun a => ~ assign_ok F a) ass ->
  parse_items F tofloat d l = Err.
Proof.
  induction l as [|s l IH]; intros d ass T X; inversion T as [|? a ? ass' Ta T']; subst; [inversion X|].
  cbn [parse_items]. inversion X as [? ? B|? ? B]; subst.
  - rewrite (item_bad _ _ _ Ta B). reflexivity.
  - destruct (parse_item F tofloat d s); [|reflexivity]. cbn [bind]. eapply IH; eauto.
Qed.

(* no empty entries *)
Definition full (d : pdict F) : Prop := forall o e, dget d o = Some e -> exists p, dget e p <> None.
Lemma dset_some {A} (d : list (str * A)) k x : dget (dset d k x) k = Some x.
Proof. rewrite dget_dset. now rewrite (proj2 (str_eqb_eq k k) eq_refl). Qed.
Lemma fold_dset_some {A} l : forall (d : list (str * A)) p, dget d p <> None -> dget (fold_left (fun d x => dset d (fst x) (snd x)) l d) p <> None.
Proof.
  induction l as [|[q x] l IH]; intros d p H; cbn [fold_left]; [exact H|]. apply IH. rewrite dget_dset. destruct (str_eqb _ _); congruence.
Qed.
Lemma store_full ps L : forall d, Forall (fun x => combine ps (combine (fst (snd x)) (snd (snd x))) <> []) L -> full d ->
  full (fold_left (fun d x => let '(o, (is, ss)) := x in
               dset d o (store_prms F (match dget d o with Some e => e | None => [] end) ps is ss)) L d).
Proof.
  induction L as [|[o [is ss]] L IH]; intros d HL Hd; cbn [fold_left]; [exact Hd|].
  inversion HL as [|? ? H1 H2]; subst. apply IH; [exact H2|]. intros o' e. rewrite dget_dset.
  destruct (str_eqb o o'); [|apply Hd]. intros H. inversion H; subst. cbn [fst snd] in H1.
  unfold store_prms. destruct (combine ps (combine is ss)) as [|[q x] r]; [congruence|].
  cbn [fold_left fst snd]. exists q. apply fold_dset_some. rewrite dset_some. discriminate.
Qed.
Lemma grid_full (os ps : list str) v s : 1 <= length ps ->
  Forall (fun x => combine ps (combine (fst (snd x)) (snd (snd x))) <> [])
    (combine os (combine (grid F (length os) (length ps) v) (grid F (length os) (length ps) s))).
Proof.
  intros P. unfold grid. rewrite combine_map2. rewrite <- (map_seq_nth os []) at 1. rewrite combine_map2.
  apply Forall_forall. intros x Hx. apply in_map_iff in Hx as (i & <- & _). cbn [fst snd]. rewrite combine_map2.
  destruct ps as [|p ps]; [cbn in P; lia|]. cbn. discriminate.
Qed.
Lemma item_full d s d' : full d -> parse_item F tofloat d s = Ok d' -> full d'.
Proof.
  intros Hd. unfold parse_item. destruct (re_prm s) as [m|] eqn:E; [|discriminate].
  destruct (vals_of F tofloat (m_val m)) as [iv|] eqn:V; [|discriminate]. cbn [bind].
  destruct (vals_of F tofloat (m_sig m)) as [sv|] eqn:S; [|discriminate]. cbn [bind].
  destruct (re_prm_inv F tofloat _ _ _ _ E V S) as (t & junk & a & J & T & (D1 & D2 & D3 & D4)).
  rewrite D1, D2. unfold vals_as in *. rewrite D3 in V. rewrite D4 in S. apply (f_equal (fun r => match r with Ok x => x | Err => [] end)) in V, S.
  subst iv sv.
  change (match a_vals F a with None => [None] | Some l => map Some l end) with (listed F (a_vals F a)).
  change (match a_sigs F a with None => [None] | Some l => map Some l end) with (listed F (a_sigs F a)).
  assert (O : 1 <= length (a_objs F a)) by (destruct T as [? ? ? ? ? ? ? X1 X2]; apply names_text_ne in X1; exact X1).
  assert (P : 1 <= length (a_prms F a)) by (destruct T as [? ? ? ? ? ? ? X1 X2]; apply names_text_ne in X2; exact X2).
  destruct (shape F _ _ _ _) as [q|] eqn:SH; [|discriminate]. cbn [bind]. intros H.
  apply (f_equal (fun r => match r with Ok x => x | Err => [] end)) in H. subst d'.
  rewrite (shape_spec F _ _ _ _ _ O P SH). cbn [fst snd]. unfold store. apply store_full; [|exact Hd]. apply grid_full. exact P.
Qed.
Lemma items_full l : forall d d', full d -> parse_items F tofloat d l = Ok d' -> full d'.
Proof.
  induction l as [|s l IH]; intros d d' Hd H; cbn [parse_items] in H; [inversion H; subst; auto|].
  destruct (parse_item F tofloat d s) as [d1|] eqn:E; [|discriminate]. cbn [bind] in H. eapply IH; [|exact H]. eapply item_full; eauto.
Qed.
Lemma full_nil : full []. Proof. intros o e H. discriminate. Qed.
Lemma full_in d o : full d -> (dget d o <> None <-> exists p, look2 F d o p <> None).
Proof.
  intros Hd. unfold look2. split.
  - intros H. destruct (dget d o) as [e|] eqn:E; [|congruence]. exact (Hd _ _ E).
  - intros [p H]. destruct (dget d o); congruence.
Qed.

(* exactly one '=' in an assignment *)
Notation eqs s := (count_occ ascii_dec s "="%char).
Lemma names_eqs s l : names_text s l -> eqs s = 0.
Proof.
  intros H. apply count_occ_not_In. destruct H as [n Hn|l Hl Fl].
  - apply (name_free n "="%char); [reflexivity|exact Hn].
  - intros [X|X]; [discriminate|]. apply in_app_or in X as [X|[X|[]]]; [|discriminate].
    revert X. change (free "="%char (join "/"%char l)). apply join_free; [discriminate|].
    eapply Forall_impl; [|exact Fl]. intros n. apply name_free. reflexivity.
Qed.
Lemma eqs_cons c s : c <> "="%char -> eqs (c :: s) = eqs s.
Proof. intros H. cbn [count_occ]. destruct (ascii_dec c "="%char); congruence. Qed.
Lemma assign_eqs s a : assign_text F tofloat s a -> eqs s = 1.
Proof.
  intros H. destruct H as [o p t os ps v sg Ho Hp Ht]. rewrite count_occ_app, (names_eqs _ _ Ho).
  cbn [count_occ]. destruct (ascii_dec "="%char "="%char); [|congruence]. rewrite count_occ_app, (names_eqs _ _ Hp).
  assert (E : eqs t = 0); [|lia].
  destruct Ht as [| |v l (ts & T1 & T2)|v l (ts & T1 & T2)|v l s m (ts & T1 & T2) (us & U1 & U2)|s m (us & U1 & U2)|];
    repeat match goal with H : names_text _ _ |- _ => apply names_eqs in H end;
    rewrite ?eqs_cons by discriminate; rewrite ?count_occ_app; rewrite ?eqs_cons by discriminate; cbn [count_occ]; try lia; reflexivity.
Qed.

(* sources *)
Lemma all_float_spec l : all_float F tofloat l = true <-> Forall (fun t => tofloat t <> None) l.
Proof.
  unfold all_float. rewrite forallb_forall, Forall_forall. split; intros H x Hx; specialize (H x Hx); destruct (tofloat x); congruence.
Qed.
Lemma split_two c s a b : split c s = [a; b] -> s = a ++ c :: b /\ free c a /\ free c b.
Proof.
  intros H. pose proof (join_split c s) as J. rewrite H in J. cbn [join] in J.
  pose proof (split_pieces c s) as S. rewrite H in S. inversion S as [|? ? S1 S2]; subst. inversion S2; subst. auto.
Qed.
Lemma src_term_means s : src_means F tofloat s (src_term F tofloat s).
Proof.
  unfold src_means, src_term.
  assert (NOT : (forall ra dec, split "_"%char s = [ra; dec] -> all_float F tofloat (split ":"%char ra) && all_float F tofloat (split ":"%char dec) = false) ->
     forall ra dec, ~ position_text F tofloat s ra dec).
  { intros H ra dec (E & R & D & rs & ds & -> & -> & NR & ND & FF).
    assert (SP : split "_"%char s = [join ":"%char rs; join ":"%char ds]).
    { subst s. change (join ":"%char rs ++ "_"%char :: join ":"%char ds) with (join "_"%char [join ":"%char rs; join ":"%char ds]).
      apply split_join; [discriminate|]. repeat constructor; assumption. }
    specialize (H _ _ SP). apply Forall_app in FF as [FR FD].
    assert (FA : forall l, Forall (fun t => tofloat t <> None /\ ~ In ":"%char t) l -> Forall (free ":"%char) l /\ Forall (fun t => tofloat t <> None) l).
    { intros l Hl. split; eapply Forall_impl; try exact Hl; intros t [A B]; auto. }
    destruct (FA _ FR) as [R1 R2]. destruct (FA _ FD) as [D1 D2].
    rewrite !split_join in H by auto. rewrite (proj2 (all_float_spec rs) R2), (proj2 (all_float_spec ds) D2) in H. discriminate. }
  destruct (split "_"%char s) as [|ra [|dec [|z r]]] eqn:E; try (right; split; [apply NOT; intros; congruence|reflexivity]).
  destruct (all_float F tofloat (split ":"%char ra) && all_float F tofloat (split ":"%char dec)) eqn:B.
  - left. exists ra, dec. split; [|reflexivity]. apply split_two in E as (E & R & D). apply Bool.andb_true_iff in B as [B1 B2].
    apply all_float_spec in B1, B2. split; [exact E|]. split; [exact R|]. split; [exact D|].
    exists (split ":"%char ra), (split ":"%char dec). rewrite !join_split. split; [reflexivity|]. split; [reflexivity|].
    split; [apply split_ne|]. split; [apply split_ne|]. apply Forall_app.
    assert (FA : forall x, Forall (fun t => tofloat t <> None) (split ":"%char x) -> Forall (fun t => tofloat t <> None /\ ~ In ":"%char t) (split ":"%char x)).
    { intros x H. pose proof (split_pieces ":"%char x) as S. rewrite Forall_forall in *. intros t Ht. split; [auto|apply S; auto]. }
    split; apply FA; assumption.
  - right. split; [|reflexivity]. apply NOT. intros a b X. inversion X; subst. exact B.
Qed.
Lemma src_means_fun s x y : src_means F tofloat s x -> src_means F tofloat s y -> x = y.
Proof.
  assert (U : forall ra dec ra' dec', position_text F tofloat s ra dec -> position_text F tofloat s ra' dec' -> ra = ra' /\ dec = dec').
  { intros ra dec ra' dec' (E & R & D & _) (E' & R' & D' & _).
    assert (S1 : split "_"%char s = [ra; dec]).
    { subst s. change (ra ++ "_"%char :: dec) with (join "_"%char [ra; dec]). apply split_join; [discriminate|]. repeat constructor; assumption. }
    assert (S2 : split "_"%char s = [ra'; dec']).
    { rewrite E'. change (ra' ++ "_"%char :: dec') with (join "_"%char [ra'; dec']). apply split_join; [discriminate|]. repeat constructor; assumption. }
    rewrite S1 in S2. inversion S2; auto. }
  intros [(ra & dec & P & ->)|[N ->]] [(ra' & dec' & P' & ->)|[N' ->]]; auto.
  - destruct (U _ _ _ _ P P') as [-> ->]. reflexivity.
  - exfalso. eapply N'; eauto.
  - exfalso. eapply N; eauto.
Qed.
Lemma has_char_spec c s : has_char c s = true <-> In c s.
Proof.
  unfold has_char. rewrite existsb_exists. split.
  - intros (x & A & B). apply ceqb_eq in B. subst. exact A.
  - intros H. exists c. split; [exact H|apply ceqb_refl].
Qed.
End Q.
