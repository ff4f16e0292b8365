(* C63: images in FITS files (aipy/img.py). *)
From Coq Require Import Ascii String.
From Verif Require Import Base ScriptModel ScriptSpec SrcSpec ImgModel ImgSpec FitsModel FitsSpec FitsProofs FitsProofs2 FitsProofs3 FitsProofs4 FitsProofs5.
Local Open Scope Z_scope.
Local Notation length := List.length.

Lemma upper_not_small x : ~ In (upper1 x) smalls.
Proof.
  intros I. assert (E : existsb (Ascii.eqb (upper1 x)) smalls = true) by (apply existsb_exists; exists (upper1 x); split; [exact I|apply Ascii.eqb_refl]).
  destruct x as [[] [] [] [] [] [] [] []]; vm_compute in E; discriminate E.
Qed.
Section C63.
Variable V : Type.
Variables (zero one : V) (of_nat : nat -> V) (add mul : V -> V -> V) (opp : V -> V) (pos finite : V -> bool) (veqb : V -> V -> bool).
Variables amax amin : list V -> V.
Variable reread : V -> V.
Hypothesis CN : card_numbers V zero one of_nat opp pos finite veqb reread.
Notation to_fits := (to_fits V zero one of_nat opp pos finite amax amin reread).
Notation from_fits := (from_fits V zero one add mul veqb).
Notation told := (told V opp pos reread).
Notation axis_values := (axis_values V zero one opp pos).

(* what was written is read: the pixels, the shape without axes of one pixel, and every keyword *)
Theorem C63_roundtrip f name sh pix cl a f' :
  to_fits true f name sh pix cl a = Ok f' ->
  exists s kw, squeezed sh s /\ from_fits f' name = Ok (s, pix, kw) /\ says V kw (told a).
Proof.
  intros H. exists (squeeze sh), (kw_of V opp pos reread a). split; [apply squeeze_spec; reflexivity|].
  split; [eapply roundtrip; [exact CN|exact H]|apply kw_says].
Qed.
(* the library keeps BSCALE and BZERO in the file: reading applies them *)
Theorem C63_scale_kept f name sh pix cl a f' b z :
  to_fits false f name sh pix cl a = Ok f' -> a_bscale V a = VN V b -> a_bzero V a = VN V z ->
  exists s kw, squeezed sh s /\
  from_fits f' name = Ok (s, if veqb (reread b) one && veqb (reread z) zero then pix else map (fun x => add (mul x (reread b)) (reread z)) pix, kw).
Proof.
  intros H B Z. apply to_fits_inv in H. destruct H as [L [_ [_ [_ [hist [u [_ [W ->]]]]]]]].
  exists (squeeze sh). eexists. split; [apply squeeze_spec; reflexivity|].
  rewrite (from_fits_written V zero one of_nat add mul opp pos finite veqb amax amin reread CN false a (squeeze sh) pix hist u) by (cbn; rewrite ?streq_refl; auto).
  repeat f_equal. destruct W as [_ [P [_ W]]]. unfold open_pix, scaled. rewrite P.
  assert (S : scale_of V zero one (u_cards V u) = (reread b, reread z)).
  { unfold scale_of. rewrite !W. cbn [kept is_naxis is_scale negb andb]. rewrite !all_K. cbn. rewrite B, Z. reflexivity. }
  rewrite S. destruct (veqb (reread b) one && veqb (reread z) zero); reflexivity.
Qed.
(* other files stay as they were *)
Theorem C63_other_files drops f name sh pix cl a f' n : to_fits drops f name sh pix cl a = Ok f' -> n <> name -> f' n = f n.
Proof.
  intros H N. apply to_fits_inv in H. destruct H as [_ [_ [_ [_ [hist [u [_ [_ ->]]]]]]]]. cbn.
  destruct (streq n name) eqn:E; [apply streq_spec in E; contradiction|reflexivity].
Qed.
(* when it is accepted: as many names as axes longer than one pixel, a pixel at all, and values a
   header can hold; with a history of printable lines *)
Theorem C63_accepts drops f name sh pix cl a s :
  squeezed sh s -> (forall c, In c (a_history V a) -> 32 <= Z.of_N (N_of_ascii c) <= 126 \/ c = newline) ->
  (exists f', to_fits drops f name sh pix cl a = Ok f') <->
  length s = length (a_axes V a) /\ s <> [] /\ pix <> [] /\ Forall (holds V finite) (given V a) /\
  (forall v, used V zero one opp pos a v -> finite v = true) /\ finite (amax pix) = true /\ finite (amin pix) = true.
Proof.
  intros SQ Hh. apply squeeze_spec in SQ. subst s.
  assert (HO : is_ok (history_cards 1 (a_history V a)) = true).
  { destruct (history_ok (a_history V a)) as [c [-> _]]; [|reflexivity]. intros c I. destruct (Hh c I) as [K|K]; [left; unfold printable, cval; lia|right; exact K]. }
  assert (X : (exists f', to_fits drops f name sh pix cl a = Ok f') <-> is_ok (to_fits drops f name sh pix cl a) = true).
  { destruct (to_fits drops f name sh pix cl a) as [f'|]; cbn; split; [reflexivity|eauto|intros [f' K]; discriminate|discriminate]. }
  rewrite X, to_fits_ok, HO, !andb_true_iff, Nat.eqb_eq, !negb_true_iff.
  rewrite (cards_legal V zero one of_nat add mul opp pos finite veqb amax amin reread CN).
  assert (Y : (match squeeze sh with [] => true | _ => false end) = false <-> squeeze sh <> []) by (destruct (squeeze sh); split; congruence).
  assert (Y2 : (match pix with [] => true | _ => false end) = false <-> pix <> []) by (destruct pix; split; congruence).
  rewrite Y, Y2. tauto.
Qed.
(* the cards of each axis, counted from the last axis of the array: name, middle pixel, value there and step *)
Theorem C63_cards drops f name sh pix cl a f' s :
  to_fits drops f name sh pix cl a = Ok f' -> squeezed sh s ->
  exists u, f' name = Some u /\ u_shape V u = s /\ u_pix V u = pix /\
  hget V (u_cards V u) (K "DATAMAX") = Some (VN V (reread (amax pix))) /\ hget V (u_cards V u) (K "DATAMIN") = Some (VN V (reread (amin pix))) /\
  forall i ax, nth_error (a_axes V a) i = Some ax -> exists t v d n,
    hget V (u_cards V u) (KI "CTYPE" (i + 1)) = Some (VS V t) /\ rtrimmed (map small ax) (map small t) /\ Forall (fun c => ~ In c smalls) t /\
    nth_error (rev s) i = Some n /\ hget V (u_cards V u) (KI "CRPIX" (i + 1)) = Some (VN V (reread (of_nat ((n + 1) / 2)%nat))) /\
    axis_values a ax v d /\ hget V (u_cards V u) (KI "CRVAL" (i + 1)) = Some (VN V (reread v)) /\
    hget V (u_cards V u) (KI "CDELT" (i + 1)) = Some (VN V (reread d)).
Proof.
  intros H SQ. apply squeeze_spec in SQ. subst s. apply to_fits_inv in H. destruct H as [L [_ [_ [_ [hist [u [_ [[E1 [E2 [_ W]]] ->]]]]]]]].
  exists u. cbn beta. rewrite streq_refl. split; [reflexivity|]. split; [exact E1|]. split; [exact E2|].
  assert (KP : forall n i, n <> "NAXIS"%string -> kept drops (KI n i) = true).
  { intros n i N. unfold kept. cbn. destruct (String.eqb_spec n "NAXIS"); [contradiction|]. rewrite andb_false_r. reflexivity. }
  split; [rewrite W, all_K; unfold kept; cbn; rewrite andb_false_r; reflexivity|]. split; [rewrite W, all_K; unfold kept; cbn; rewrite andb_false_r; reflexivity|].
  intros i ax E. destruct (axis_card_vals V zero one of_nat opp pos a (squeeze sh) i ax) as [C1 [C2 [C3 [C4 _]]]].
  assert (A : forall n, lastv V (all_cards V zero one of_nat opp pos amax amin a (squeeze sh) pix) (KI n (i + 1)) = lastv V (axis_cards V zero one of_nat opp pos a (squeeze sh) i ax) (KI n (i + 1)))
    by (intros n; apply all_KI; exact E).
  assert (I : (i < length (squeeze sh))%nat) by (rewrite L; apply nth_error_Some; rewrite E; discriminate).
  exists (rtrim (upper ax)), (fst (axis_vd V zero one opp pos a ax)), (snd (axis_vd V zero one opp pos a ax)), (nth (length (squeeze sh) - (i + 1)) (squeeze sh) O).
  rewrite !W, !KP, !A, C1, C2, C3, C4 by discriminate. cbn [option_map store].
  split; [reflexivity|]. split; [apply trimmed_rtrim; rewrite !map_small, <- rtrim_lower, lower_upper; reflexivity|].
  split; [apply Forall_forall; intros c K; destruct (proj1 (rtrim_trimmed (upper ax))) as [k Q];
          assert (J : In c (upper ax)) by (rewrite Q; apply in_or_app; left; exact K);
          apply in_map_iff in J; destruct J as [x [<- _]]; apply upper_not_small|].
  split; [|split; [|split; [apply axis_vd_spec|split; reflexivity]]].
  - rewrite (nth_error_nth' _ O) by (rewrite rev_length; exact I). rewrite rev_nth by exact I. do 2 f_equal. lia.
  - rewrite Nat.div2_div. reflexivity.
Qed.
(* reading an image and writing it again with the keywords read changes nothing *)
Theorem C63_rewrite today v2000 f name sh pix cl a f1 s p kw m cl2 :
  to_fits true f name sh pix cl a = Ok f1 -> from_fits f1 name = Ok (s, p, kw) ->
  exists a2 f2 kw2, call_args V (defaults V zero today v2000) kw = Ok a2 /\ to_fits true f1 m s p cl2 a2 = Ok f2 /\
  from_fits f2 m = Ok (s, p, kw2) /\ NoDup (map fst kw2) /\ forall k v, In (k, v) kw2 <-> In (k, v) kw.
Proof.
  intros H R. pose proof (roundtrip V zero one of_nat add mul opp pos finite veqb amax amin reread CN _ _ _ _ _ _ _ H) as R2. rewrite R2 in R. injection R as <- <- <-.
  destruct (rewrite_again V zero one of_nat add mul opp pos finite veqb amax amin reread CN today v2000 f name sh pix cl a f1 m cl2 H) as [f2 [E1 [E2 E3]]].
  exists (again V zero opp pos reread a), f2. eexists. split; [exact E1|]. split; [exact E2|]. split; [exact E3|]. split; [apply kw_nodup|].
  intros k v. rewrite !kget_in by apply kw_nodup. rewrite (kw_again V zero one of_nat opp pos finite veqb reread CN). reflexivity.
Qed.
(* the words of the history are in the header in order *)
Theorem C63_history drops f name sh pix cl a f' :
  to_fits drops f name sh pix cl a = Ok f' -> (forall c, In c (a_history V a) -> 32 <= Z.of_N (N_of_ascii c) <= 126 \/ c = newline) ->
  exists u cards, f' name = Some u /\ history_is (a_history V a) cards /\ Forall2 rtrimmed cards (u_hist V u).
Proof.
  intros H P. apply to_fits_inv in H. destruct H as [_ [_ [_ [_ [hist [u [HC [[_ [_ [UH _]]] ->]]]]]]]].
  destruct (history_ok (a_history V a)) as [cards [E HI]].
  { intros c I. destruct (P c I) as [K|K]; [left; unfold printable, cval; lia|right; exact K]. }
  rewrite E in HC. injection HC as <-. exists u, cards. cbn beta. rewrite streq_refl. split; [reflexivity|]. split; [exact HI|].
  rewrite UH. clear. induction cards as [|c r IH]; cbn; constructor; [apply rtrim_trimmed|exact IH].
Qed.
(* a file from elsewhere is read unless its axis names are numbers; a card that is missing is left out *)
Theorem C63_tolerant f name u : f name = Some u ->
  (forall i v, (i < length (u_shape V u))%nat -> hget V (u_cards V u) (KI "CTYPE" (i + 1)) <> Some (VN V v)) ->
  exists d kw, from_fits f name = Ok (d, kw).
Proof.
  intros F H. unfold FitsModel.from_fits. rewrite F. cbv zeta. set (h := open_cards V zero one veqb u). cbv zeta. match goal with |- context [axes_kwds V h _ (?d, [])] => generalize d end. intros d0.
  assert (G : forall i v, (i < length (u_shape V u))%nat -> hget V h (KI "CTYPE" (i + 1)) <> Some (VN V v)) by (intros i v I; unfold h; rewrite open_get by reflexivity; apply H, I).
  assert (X : forall l st, (forall i, In i l -> (i < length (u_shape V u))%nat) -> exists r, axes_kwds V h l st = Ok r).
  { induction l as [|i l IH]; intros st B; [exists st; reflexivity|]. cbn [axes_kwds]. destruct st as [d ax]. unfold axis_kwds at 1.
    destruct (hget V h (KI "CTYPE" (i + 1))) as [[t|v]|] eqn:E; [|exfalso; exact (G i v (B i (or_introl eq_refl)) E)|cbn [bind]; apply IH; intros j J; apply B; right; exact J].
    assert (B' : forall j, In j l -> (j < length (u_shape V u))%nat) by (intros j J; apply B; right; exact J).
    destruct (hget V h (KI "CRVAL" (i + 1))); [destruct (hget V h (KI "CDELT" (i + 1)))|]; cbn [bind]; apply IH; exact B'. }
  destruct (X (seq 0 (length (u_shape V u))) (d0, [])) as [[d axes] E]; [intros i I; apply in_seq in I; lia|]. rewrite E. cbn [bind].
  eexists. eexists. reflexivity.
Qed.
(* a file with TRANSPOS set is turned over: element idx is found at the reversed index *)
Lemma indices_len sh : length (indices sh) = fold_right Nat.mul 1%nat sh.
Proof.
  induction sh as [|n r IH]; [reflexivity|]. cbn. rewrite <- IH. generalize 0%nat as j. induction n as [|n IHn]; intros j; [reflexivity|].
  cbn. rewrite app_length, map_length, IHn. reflexivity.
Qed.
Lemma indices_nth sh : forall idx, inside sh idx -> nth_error (indices sh) (position sh idx) = Some idx /\ (position sh idx < fold_right Nat.mul 1 sh)%nat.
Proof.
  induction sh as [|n r IH]; intros idx H; inversion H as [|x i y q Hi Hq]; subst; [cbn; split; [reflexivity|lia]|].
  destruct (IH q Hq) as [E L]. set (p := fold_right Nat.mul 1%nat r) in *. cbn [indices position]. fold p.
  assert (G : forall m j, (i < m)%nat -> nth_error (flat_map (fun i => map (cons i) (indices r)) (seq j m)) (i * p + position r q) = Some ((j + i)%nat :: q)).
  { clear Hi H. induction i as [|i IHi]; intros m j M; (destruct m as [|m]; [lia|]); cbn [seq flat_map].
    - rewrite nth_error_app1 by (rewrite map_length, indices_len; fold p; lia). cbn [Nat.mul Nat.add]. rewrite Nat.add_0_r. erewrite map_nth_error by exact E. reflexivity.
    - rewrite nth_error_app2 by (rewrite map_length, indices_len; fold p; cbn; lia). rewrite map_length, indices_len. fold p.
      replace (S i * p + position r q - p)%nat with (i * p + position r q)%nat by (cbn; lia). rewrite IHi by lia. do 2 f_equal. lia. }
  split; [apply (G n 0%nat Hi)|]. cbn [fold_right]. fold p. nia.
Qed.
Theorem C63_transposed f name u t d s kw : f name = Some u -> hget V (u_cards V u) (K "TRANSPOS") = Some t ->
  t <> VS V [] -> (forall x, t = VN V x -> veqb x zero = false) ->
  hget V (u_cards V u) (K "BSCALE") = None -> hget V (u_cards V u) (K "BZERO") = None ->
  from_fits f name = Ok (s, d, kw) ->
  s = rev (u_shape V u) /\ length d = fold_right Nat.mul 1%nat (rev (u_shape V u)) /\
  forall idx, inside (u_shape V u) idx -> nth (position s (rev idx)) d zero = nth (position (u_shape V u) idx) (u_pix V u) zero.
Proof.
  intros F T X0 X B1 B2. assert (TT : truthy V zero veqb t = true).
  { destruct t as [[|c r]|x]; [contradiction|reflexivity|]. cbn. rewrite (X x eq_refl). reflexivity. }
  unfold FitsModel.from_fits. rewrite F. unfold open_cards, open_pix, scaled, scale_of. rewrite B1, B2.
  assert (E : veqb one one = true /\ veqb zero zero = true) by (split; apply CN). destruct E as [-> ->]. cbn [andb negb]. rewrite T, TT.
  destruct (axes_kwds _ _ _ _) as [[kd ax]|]; [|discriminate]. cbn [bind]. intros [= <- <- <-]. split; [reflexivity|].
  unfold transpose. rewrite map_length, indices_len. split; [reflexivity|]. intros idx I.
  assert (R : inside (rev (u_shape V u)) (rev idx)).
  { unfold inside in *. clear - I. induction I as [|n i r q H I IH]; [constructor|]. cbn. apply Forall2_app; [exact IH|]. constructor; [exact H|constructor]. }
  destruct (indices_nth _ _ R) as [N L].
  apply (map_nth_error (fun idx => nth (offset (u_shape V u) (rev idx)) (u_pix V u) zero)) in N. apply (nth_error_nth _ _ zero) in N. rewrite N, rev_involutive.
  reflexivity.
Qed.
(* every other file is not *)
Theorem C63_upright f name u d s kw : f name = Some u ->
  (forall t, hget V (u_cards V u) (K "TRANSPOS") = Some t -> t = VS V [] \/ exists x, t = VN V x /\ veqb x zero = true) ->
  hget V (u_cards V u) (K "BSCALE") = None -> hget V (u_cards V u) (K "BZERO") = None ->
  from_fits f name = Ok (s, d, kw) -> s = u_shape V u /\ d = u_pix V u.
Proof.
  intros F T B1 B2. unfold FitsModel.from_fits. rewrite F. unfold open_cards, open_pix, scaled, scale_of. rewrite B1, B2.
  assert (E : veqb one one = true /\ veqb zero zero = true) by (split; apply CN). destruct E as [-> ->]. cbn [andb negb].
  assert (TT : match hget V (u_cards V u) (K "TRANSPOS") with Some v => truthy V zero veqb v | None => false end = false).
  { destruct (hget V (u_cards V u) (K "TRANSPOS")) as [t|]; [|reflexivity]. destruct (T t eq_refl) as [->|[x [-> X]]]; [reflexivity|]. cbn. rewrite X. reflexivity. }
  rewrite TT. destruct (axes_kwds _ _ _ _) as [[kd ax]|]; [|discriminate]. cbn [bind]. intros [= <- <- <-]. split; reflexivity.
Qed.
(* without keywords an image has right ascension and declination, in the sine projection, for its axes *)
Theorem C63_default_axes today v2000 drops f name sh pix cl f' : to_fits drops f name sh pix cl (defaults V zero today v2000) = Ok f' ->
  exists u, f' name = Some u /\ hget V (u_cards V u) (KI "CTYPE" 1) = Some (VS V (lit "RA--SIN")) /\
  hget V (u_cards V u) (KI "CTYPE" 2) = Some (VS V (lit "DEC--SIN")) /\ hget V (u_cards V u) (KI "CTYPE" 3) = None.
Proof.
  intros H. apply to_fits_inv in H. destruct H as [_ [_ [_ [_ [hist [u [_ [W ->]]]]]]]]. exists u. cbn beta. rewrite streq_refl. split; [reflexivity|].
  destruct W as [_ [_ [_ W]]]. rewrite !W. cbn [kept is_naxis is_scale String.eqb Ascii.eqb Bool.eqb negb andb orb]. rewrite ?andb_false_r. repeat split.
Qed.
End C63.

(* ---- numbers for the examples: integers and a value that is not a number ---- *)
Definition num := option Z.
Definition n_of (n : nat) : num := Some (Z.of_nat n).
Definition n_opp (x : num) : num := option_map Z.opp x.
Definition n_pos (x : num) : bool := match x with Some z => 0 <? z | None => false end.
Definition n_fin (x : num) : bool := match x with Some _ => true | None => false end.
Definition n_eqb (x y : num) : bool := match x, y with Some a, Some b => a =? b | _, _ => false end.
Definition n_op (f : Z -> Z -> Z) (x y : num) : num := match x, y with Some a, Some b => Some (f a b) | _, _ => None end.
Definition n_fold (f : Z -> Z -> Z) (l : list num) : num := match l with [] => None | x :: r => fold_left (n_op f) r x end.
Notation n_to := (to_fits num (Some 0) (Some 1) n_of n_opp n_pos n_fin (n_fold Z.max) (n_fold Z.min) (fun x => x)).
Notation n_from := (from_fits num (Some 0) (Some 1) (n_op Z.add) (n_op Z.mul) n_eqb).
Example C63_numbers : card_numbers num (Some 0) (Some 1) n_of n_opp n_pos n_fin n_eqb (fun x => x).
Proof. unfold card_numbers. repeat split; try (intros [x|]; cbn; intros; congruence || lia). Qed.
Definition day : str := lit "16/11/26".
Definition defs : args num := defaults num (Some 0) day (Some 2000).
Definition with_d_ra (d : Z) : args num :=
  Args num [lit "ra--sin"; lit "dec--sin"] (VS num (lit "cyg  ")) (VS num []) (VS num []) (VS num []) (VS num (lit "AIPY")) (VS num day) (VS num day)
       (Some 299) (Some 40) (Some d) (Some 2) (VN num (Some 2000)) (Some 0) (Some 0) (VN num (Some 0)) (VN num (Some 0)) [].
Definition nofile : fs num := fun _ => None.
Definition px (l : list Z) : list num := map Some l.
Example C63_example : exists f', n_to true nofile (lit "a.fits") [1; 2; 3]%nat (px [1; 2; 3; 4; 5; 6]) false (with_d_ra (-1)) = Ok f' /\
  exists kw, n_from f' (lit "a.fits") = Ok ([2; 3]%nat, px [1; 2; 3; 4; 5; 6], kw) /\ kget num kw "object" = Some (Val num (VS num (lit "cyg"))) /\
  kget num kw "ra" = Some (Val num (VN num (Some 299))) /\ kget num kw "d_ra" = Some (Val num (VN num (Some (-1)))) /\
  kget num kw "d_dec" = Some (Val num (VN num (Some 2))) /\ kget num kw "axes" = Some (Axes num [lit "ra--sin"; lit "dec--sin"]) /\ kget num kw "freq" = None.
Proof. eexists. split; [reflexivity|]. eexists. split; [vm_compute; reflexivity|]. repeat split. Qed.

(* clobber=False does not protect an existing file *)
Theorem C63_clobber_refuted : exists f name f', f name <> None /\ n_to true f name [2; 2]%nat (px [1; 2; 3; 4]) false defs = Ok f' /\ f' name <> f name.
Proof.
  exists (fun _ => Some (Hdu num [] [] [1]%nat (px [7]))), (lit "a.fits"). eexists. split; [discriminate|]. split; [reflexivity|].
  cbn. intros [= K].
Qed.
(* a positive step in right ascension comes back negative *)
Theorem C63_step_sign_refuted : exists f', n_to true nofile (lit "a.fits") [2; 2]%nat (px [1; 2; 3; 4]) false (with_d_ra 1) = Ok f' /\
  exists d kw, n_from f' (lit "a.fits") = Ok (d, kw) /\ kget num kw "d_ra" = Some (Val num (VN num (Some (-1)))).
Proof. eexists. split; [reflexivity|]. eexists. eexists. split; [vm_compute; reflexivity|reflexivity]. Qed.
(* an image one pixel high or wide cannot be written, though two axes are named *)
Theorem C63_narrow_refuted : forall n f name pix cl, n_to true f name [1%nat; n] pix cl defs = Err /\ n_to true f name [n; 1%nat] pix cl defs = Err.
Proof.
  intros n f name pix cl. unfold to_fits. cbn [squeeze filter Nat.eqb negb]. destruct (negb (Nat.eqb n 1)); split; reflexivity.
Qed.
(* galactic coordinates are written but not told *)
Definition galactic : args num :=
  Args num [lit "glon-car"; lit "glat-car"] (VS num []) (VS num []) (VS num []) (VS num []) (VS num []) (VS num day) (VS num day)
       (Some 120) (Some 30) (Some (-1)) (Some 1) (VN num (Some 2000)) (Some 0) (Some 0) (VN num (Some 0)) (VN num (Some 0)) [].
Theorem C63_galactic_refuted : exists f' u d kw, n_to true nofile (lit "a.fits") [2; 2]%nat (px [1; 2; 3; 4]) false galactic = Ok f' /\
  f' (lit "a.fits") = Some u /\ hget num (u_cards num u) (KI "CRVAL" 1) = Some (VN num (Some 120)) /\
  n_from f' (lit "a.fits") = Ok (d, kw) /\ kget num kw "ra" = None /\ kget num kw "dec" = None /\ kget num kw "d_ra" = None.
Proof. eexists. eexists. eexists. eexists. split; [reflexivity|]. split; [reflexivity|]. split; [reflexivity|]. split; [vm_compute; reflexivity|]. repeat split. Qed.
(* one pixel that is not a number and the image cannot be written *)
Theorem C63_nan_refuted : forall f cl, n_to true f (lit "a.fits") [2; 2]%nat [Some 1; None; Some 3; Some 4] cl defs = Err.
Proof. reflexivity. Qed.
(* where the library keeps BSCALE, the default arguments lose the image: every pixel is read as zero *)
Theorem C63_default_scale_refuted : forall a b c d, exists f',
  n_to false nofile (lit "a.fits") [2; 2]%nat (px [a; b; c; d]) false defs = Ok f' /\ exists kw, n_from f' (lit "a.fits") = Ok ([2; 2]%nat, px [0; 0; 0; 0], kw).
Proof.
  intros a b c d. eexists. split; [reflexivity|]. eexists. cbn. rewrite !Z.mul_0_r. reflexivity.
Qed.
(* a line of one character is left out of the history; a word of a comment line is torn in two *)
Theorem C63_history_refuted : history_cards 1 (lit "a") = Ok [] /\
  exists long, length long = 72%nat /\ history_cards 1 (lit "# " ++ long) = Ok [lit " " ++ lit " # " ++ firstn 68 long; skipn 68 long].
Proof. split; [reflexivity|]. exists (repeat "w"%char 72). split; [reflexivity|]. vm_compute. reflexivity. Qed.
(* find_axis looks for the number in the name of the axis instead of the keyword *)
Theorem C63_find_axis_refuted : exists f' u, n_to true nofile (lit "a.fits") [2; 2]%nat (px [1; 2; 3; 4]) false defs = Ok f' /\ f' (lit "a.fits") = Some u /\
  find_axis num (u_cards num u) (lit "ra") = Err /\ find_axis num (u_cards num u) (lit "dec") = Err.
Proof. eexists. eexists. split; [reflexivity|]. split; [reflexivity|]. split; vm_compute; reflexivity. Qed.
(* from_fits_to_fits never writes a file *)
Theorem C63_copy_refuted V : forall f infile outfile sh pix d, from_fits_to_fits V f infile outfile sh pix d = Err.
Proof. intros. unfold from_fits_to_fits. destruct (f infile); reflexivity. Qed.

Print Assumptions C63_roundtrip. Print Assumptions C63_scale_kept. Print Assumptions C63_other_files. Print Assumptions C63_accepts.
Print Assumptions C63_cards. Print Assumptions C63_rewrite. Print Assumptions C63_history. Print Assumptions C63_tolerant. Print Assumptions C63_transposed. Print Assumptions C63_upright. Print Assumptions C63_default_axes.
Print Assumptions C63_clobber_refuted. Print Assumptions C63_step_sign_refuted. Print Assumptions C63_narrow_refuted. Print Assumptions C63_galactic_refuted.
Print Assumptions C63_nan_refuted. Print Assumptions C63_default_scale_refuted. Print Assumptions C63_history_refuted. Print Assumptions C63_find_axis_refuted. Print Assumptions C63_copy_refuted.
