(* C33-C36: recenter, append_hermitian, ImgW gridding and word_wrap. *)
From Coq Require Import Reals Lra Ascii Permutation Sorted.
From Verif Require Import Base CleanModel CleanSpec CleanProofs CleanProofs2 GridModel GridSpec GridProofs GridProofs2 GridProps ImgModel ImgSpec ImgProofs ImgProofs2 ImgProofs3 ImgProofs4.
Ltac Zify.zify_post_hook ::= idtac.
Open Scope nat_scope.

(* ================ C33 ================ *)
Theorem C33_recenter {A} s0 s1 (a : list (list A)) c0 c1 : rect s0 s1 a -> 0 < s0 -> 0 < s1 ->
  exists a', recenter s0 s1 a c0 c1 = Ok a' /\ rect s0 s1 a' /\
  (forall i j, i < s0 -> j < s1 ->
     at2 a' i j = at2 a (Z.to_nat ((Z.of_nat i + c0) mod Z.of_nat s0)) (Z.to_nat ((Z.of_nat j + c1) mod Z.of_nat s1))) /\
  Permutation (concat a') (concat a) /\
  recenter s0 s1 a' (- c0) (- c1) = Ok a.
Proof.
  intros [L F] P0 P1. unfold recenter. destruct (Nat.eqb_spec s0 0), (Nat.eqb_spec s1 0); try lia. cbn [orb].
  pose proof (Z.mod_pos_bound c0 (Z.of_nat s0) ltac:(lia)) as B0. pose proof (Z.mod_pos_bound c1 (Z.of_nat s1) ltac:(lia)) as B1.
  set (k0 := Z.to_nat (c0 mod Z.of_nat s0)). set (k1 := Z.to_nat (c1 mod Z.of_nat s1)).
  assert (F0 : Forall (fun r => length r = s1) (rotate k0 a)). { rewrite Forall_forall in *. intros r I. apply F. eapply Permutation_in; [apply rotate_perm|]. exact I. }
  eexists. split; [reflexivity|]. split.
  { split; [rewrite map_length, rotate_length; lia|]. rewrite Forall_forall in *. intros r I. apply in_map_iff in I as (r' & <- & I). rewrite rotate_length; [auto|]. rewrite (F0 r' I). lia. }
  split.
  { intros i j I J. unfold at2. rewrite nth_error_map, rotate_nth by lia. rewrite L.
    replace (Z.to_nat ((Z.of_nat i + c0) mod Z.of_nat s0)) with ((i + k0) mod s0).
    2: { apply Nat2Z.inj. rewrite Nat2Z.inj_mod, Nat2Z.inj_add. unfold k0. rewrite !Z2Nat.id; [|apply Z.mod_pos_bound; lia | lia]. rewrite Zplus_mod_idemp_r. auto. }
    replace (Z.to_nat ((Z.of_nat j + c1) mod Z.of_nat s1)) with ((j + k1) mod s1).
    2: { apply Nat2Z.inj. rewrite Nat2Z.inj_mod, Nat2Z.inj_add. unfold k1. rewrite !Z2Nat.id; [|apply Z.mod_pos_bound; lia | lia]. rewrite Zplus_mod_idemp_r. auto. }
    destruct (nth_error a ((i + k0) mod s0)) as [r|] eqn:E; cbn [option_map]; auto.
    rewrite Forall_forall in F. apply nth_error_In in E. rewrite <- (F r E). apply rotate_nth; rewrite (F r E); lia. }
  split.
  { transitivity (concat (rotate k0 a)).
    - clear. generalize (rotate k0 a). intros l. induction l as [|r l IH]; cbn; auto. apply Permutation_app; auto. apply rotate_perm.
    - unfold rotate. rewrite concat_app, Permutation_app_comm, <- concat_app, firstn_skipn. auto. }
  unfold k0. rewrite <- L. f_equal.
  transitivity (map (rotate (Z.to_nat ((- c1) mod Z.of_nat s1))) (map (rotate k1) a)).
  - f_equal. unfold rotate at 1. rewrite skipn_map, firstn_map, <- map_app. f_equal. 
    apply (rotate_inv a c0). destruct a; [cbn in L; lia | discriminate].
  - rewrite map_map. rewrite <- (map_id a) at 2. apply map_ext_in. intros r I. rewrite Forall_forall in F. specialize (F r I). unfold k1. rewrite <- F. apply rotate_inv. destruct r; [cbn in F; lia | discriminate].
Qed.
Example C33_case : rect 2 3 [[1; 2; 3]; [4; 5; 6]] /\ recenter 2 3 [[1; 2; 3]; [4; 5; 6]] 3 (-1) = Ok [[6; 4; 5]; [3; 1; 2]].
Proof. split; [split; repeat constructor | reflexivity]. Qed.
(* an array with an empty axis has no centre to move: the call raises *)
Theorem C33_empty_axis_refuted : exists s0 s1 (a : list (list nat)), rect s0 s1 a /\ forall c0 c1, recenter s0 s1 a c0 c1 = Err.
Proof. exists 0, 3, []. split; [split; auto | reflexivity]. Qed.

(* ================ C36 ================ *)
Theorem C36_word_wrap s width ind1 ind2 prefix :
  let lead1 := prefix ++ repeat sp (Z.to_nat ind1) in
  let lead2 := prefix ++ repeat sp (Z.to_nat ind2) in
  let room := (width - 2 - Z.max (Z.of_nat (length lead1)) (Z.of_nat (length lead2)))%Z in
  (1 <= room)%Z ->
  exists ws ps lines, words_of s ws /\ Forall2 (cut (Z.to_nat room)) ws ps /\
  word_lines s width ind1 ind2 prefix = Ok lines /\
  laid_out (Z.to_nat width) lead1 lead2 (concat ps) lines /\
  Forall (fun l => Z.of_nat (length l) < width)%Z lines.
Proof.
  intros lead1 lead2 room H. unfold word_lines. fold blank. change blank with sp. fold lead1 lead2.
  replace (Z.min (width - 2 - Z.of_nat (length lead1)) (width - 2 - Z.of_nat (length lead2)))%Z with room by (unfold room; lia).
  destruct (Z.eqb_spec room 0); [lia|]. destruct (Z.ltb_spec room 0); [lia|].
  exists (split_blank s), (map (fun w => chunk w (Z.to_nat room)) (split_blank s)). eexists.
  split; [apply split_words|].
  assert (CS : Forall2 (cut (Z.to_nat room)) (split_blank s) (map (fun w => chunk w (Z.to_nat room)) (split_blank s))).
  { generalize (split_blank s). intros l. induction l; cbn; constructor; auto. apply chunk_spec. lia. }
  split; auto. split; [reflexivity|]. rewrite <- flat_map_concat_map. apply wrap_laid; [|unfold room in *; lia].
  apply Forall_forall. intros w I. apply in_flat_map in I as (v & _ & I). destruct (chunk_spec v (Z.to_nat room) ltac:(lia)) as (_ & F & _).
  rewrite Forall_forall in F. specialize (F w I). rewrite app_length. unfold room in *. lia.
Qed.
(* the words are recovered from the pieces, so nothing is lost, repeated or moved *)
Corollary C36_words_kept n ws ps : Forall2 (cut n) ws ps -> map (@concat ascii) ps = ws.
Proof. induction 1 as [|w p ws ps (E & _) _ IH]; cbn; congruence. Qed.
Definition abc : list ascii := ["a"; "b"; " "; "c"; "d"; "e"; "f"; "g"; " "; "h"]%char.
Example C36_case : word_lines abc 8 0 1 [] = Ok [[" "; "a"; "b"]; [" "; "c"; "d"; "e"; "f"; "g"]; [" "; "h"]]%char.
Proof. reflexivity. Qed.
(* without room the words vanish, or the call raises *)
Theorem C36_narrow_refuted : exists s width, word_lines s width 0 0 [] = Ok [[]] /\ s <> [] /\ word_lines s (width + 1) 0 0 [] = Err.
Proof. exists abc, 1%Z. repeat split; discriminate. Qed.

(* ================ C34 ================ *)
Open Scope R_scope.
Definition opposite (p : R * R * R) : R * R * R := let '(u, v, w) := p in (- u, - v, - w).
Theorem C34_samples nb uvw data w uvw2 data2 w2 : length data = length uvw -> append_hermitian nb uvw data w = Ok (uvw2, data2, w2) ->
  firstn (length uvw) uvw2 = uvw /\ firstn (length data) data2 = data /\ length uvw2 = (2 * length uvw)%nat /\ length data2 = (2 * length data)%nat /\
  (forall k, (k < length uvw)%nat ->
     nth (length uvw + k) uvw2 (0, 0, 0) = opposite (nth k uvw (0, 0, 0)) /\ nth (length uvw + k) data2 (0, 0) = cconj (nth k data (0, 0))) /\
  (forall p z, In (p, z) (combine uvw2 data2) -> In (opposite p, cconj z) (combine uvw2 data2)) /\
  (forall ws, norm_wgts nb (length data) w = Ok ws -> norm_wgts nb (length data2) w2 = Ok (map (fun l => l ++ l) ws)).
Proof.
  intros L E.
  assert (X : uvw2 = uvw ++ map mirror uvw /\ data2 = data ++ map cconjugate data /\
     (forall ws, norm_wgts nb (length data) w = Ok ws -> norm_wgts nb (length data2) w2 = Ok (map (fun l => l ++ l) ws))).
  { unfold append_hermitian in E. destruct w as [|l|ls].
    - injection E as <- <- <-. split; auto. split; auto. intros ws H. cbn [norm_wgts] in *. injection H as <-.
      cbn [map]. rewrite map_repeat_c, app_length, map_length, <- !repeat_app. auto.
    - destruct (norm_wgts nb (length data) (WBare l)) as [ws|] eqn:EN; [|discriminate]. cbn [bind] in E. injection E as <- <- <-. split; auto. split; auto.
      intros ws' H. injection H as <-. cbn [norm_wgts] in *. rewrite map_length. destruct (Nat.eqb_spec nb 1) as [->|]; [|discriminate]. cbn [andb] in EN. destruct (negb _); [|discriminate]. injection EN as <-. auto.
    - destruct (norm_wgts nb (length data) (WList ls)) as [ws|] eqn:EN; [|discriminate]. cbn [bind] in E. injection E as <- <- <-. split; auto. split; auto.
      intros ws' H. injection H as <-. cbn [norm_wgts] in *. rewrite map_length. destruct (Nat.eqb_spec (length ls) nb) as [EL|]; [|discriminate]. injection EN as <-. rewrite EL, Nat.eqb_refl. auto. }
  destruct X as (-> & -> & HW). clear E.
  split; [apply firstn_app_2 with (n := 0%nat) || (rewrite firstn_app, Nat.sub_diag, firstn_all, firstn_O, app_nil_r; auto)|].
  split; [rewrite firstn_app, Nat.sub_diag, firstn_all, firstn_O, app_nil_r; auto|].
  split; [rewrite app_length, map_length; lia|]. split; [rewrite app_length, map_length; lia|].
  split.
  { intros k K. split.
    - rewrite app_nth2 by lia. replace (length uvw + k - length uvw)%nat with k by lia.
      rewrite (nth_indep _ _ (mirror (0, 0, 0))) by (rewrite map_length; auto). rewrite map_nth. destruct (nth k uvw (0, 0, 0)) as [[a b] c]. auto.
    - rewrite app_nth2 by lia. replace (length uvw + k - length data)%nat with k by lia.
      rewrite (nth_indep _ _ (cconjugate (0, 0))) by (rewrite map_length; lia). rewrite map_nth. auto. }
  split; auto. intros p z I. rewrite combine_app in * by auto. apply in_app_iff in I. apply in_app_iff.
  rewrite combine_map2 in *. destruct I as [I|I].
  - right. apply in_map_iff. exists (p, z). split; [destruct p as [[a b] c]; reflexivity | auto].
  - left. apply in_map_iff in I as ([q y] & E & I). injection E as <- <-. cbn [fst snd] in *. destruct q as [[a b] c]. unfold mirror, opposite, cconj, cconjugate. cbn [fst snd].
    rewrite !Ropp_involutive. destruct y as [y1 y2]. auto.
Qed.
(* gridding such samples keeps the uv matrix hermitian (and the beams, for real weights), and
   the inverse transform of a hermitian matrix is real *)
Theorem C34_put_hermitian im uvw data w uvw2 data2 w2 : (0 < i_n im)%Z -> length data = length uvw -> (0 < length (i_bm im))%nat ->
  (w = WNone \/ exists ws, norm_wgts (length (i_bm im)) (length data) w = Ok ws /\ Forall (fun l => length l = length uvw /\ Forall (fun z : R * R => snd z = 0) l) ws) ->
  hermitian (i_n im) (i_uv im) -> Forall (hermitian (i_n im)) (i_bm im) ->
  append_hermitian (length (i_bm im)) uvw data w = Ok (uvw2, data2, w2) ->
  exists im', put im uvw2 data2 w2 = Ok im' /\ i_n im' = i_n im /\
    hermitian (i_n im) (i_uv im') /\ Forall (hermitian (i_n im)) (i_bm im').
Proof.
  intros N L NB W HU HB E. destruct W as [->|(ws & W)]; [eapply (put_herm im uvw data WNone []); eauto | eapply put_herm; eauto].
Qed.
Theorem C34_real_image n m x y : (0 < n)%Z -> hermitian n m -> snd (ifft2 n m x y) = 0.
Proof. apply ifft2_real. Qed.
Definition blank_img (n : Z) : img := Img n 1 zeros [zeros].
Example C34_case : exists uvw2 data2 w2, append_hermitian 1 [(3, 4, 5); (1, 0, 2)] [(1, 1); (2, -1)] (WList [[(1, 0); (2, 0)]]) = Ok (uvw2, data2, w2) /\
  hermitian 8 zeros /\ Forall (fun l => length l = 2%nat /\ Forall (fun z : R * R => snd z = 0) l) [[(1, 0); (2, 0)]] /\
  norm_wgts 1 2 (WList [[(1, 0); (2, 0)]]) = Ok [[(1, 0); (2, 0)]].
Proof.
  eexists _, _, _. split; [reflexivity|]. split; [|split; [repeat constructor|reflexivity]]. intros a b _ _. unfold zeros, cconj. cbn. f_equal. ring.
Qed.
(* one visibility with a bare array of one weight: the call goes through, but the weight's
   element is a number, not an array, and it raises *)
Theorem C34_one_weight_refuted : exists uvw data w, length uvw = length data /\ length w = length data /\ append_hermitian 1 uvw data (WBare w) = Err /\
  (forall im, length (i_bm im) = 1%nat -> put im uvw data (WBare w) = Err).
Proof.
  exists [(1, 2, 3)], [(1, 0)], [(1, 0)]. split; [reflexivity|]. split; [reflexivity|]. split; [reflexivity|].
  intros im E. unfold put. rewrite E. reflexivity.
Qed.

(* the weights put uses: none given, 1 for the first beam and 0 for the others; for one beam an array
   of any length but 1; otherwise one array per beam. Anything else is an error *)
Theorem C34_weights nb len w ws : norm_wgts nb len w = Ok ws <->
  match w with
  | WNone => ws = repeat (1, 0) len :: repeat (repeat (0, 0) len) (nb - 1)
  | WBare l => nb = 1%nat /\ length l <> 1%nat /\ ws = [l]
  | WList ls => length ls = nb /\ ws = ls
  end.
Proof.
  destruct w as [|l|ls]; cbn [norm_wgts].
  - split; [intros [= <-] | intros ->]; auto.
  - destruct (Nat.eqb_spec nb 1), (Nat.eqb_spec (length l) 1); cbn [andb negb]; try (split; [discriminate | tauto]). split; [intros [= <-]; auto | intros (_ & _ & ->); auto].
  - destruct (Nat.eqb_spec (length ls) nb); [split; [intros [= <-]; auto | intros (_ & ->); auto] | split; [discriminate | tauto]].
Qed.

(* ================ C35 ================ *)
(* with W projection one weight for one beam, or one sample with a weight per beam, will do too *)
Theorem C35_weights nb len w ws : norm_wgts_w nb len w = Ok ws <->
  match w with
  | WNone => ws = repeat (1, 0) len :: repeat (repeat (0, 0) len) (nb - 1)
  | WBare l => (nb = 1%nat /\ ws = [l]) \/ (nb <> 1%nat /\ len = 1%nat /\ length l = nb /\ ws = map (fun x => [x]) l)
  | WList ls => length ls = nb /\ ws = ls
  end.
Proof.
  destruct w as [|l|ls]; [apply (C34_weights nb len WNone)| |apply (C34_weights nb len (WList ls))]. cbn [norm_wgts_w].
  destruct (Nat.eqb_spec nb 1); [split; [intros [= <-]; auto | intros [(_ & ->)|(H & _)]; tauto]|].
  destruct (Nat.eqb_spec (length l) nb), (Nat.eqb_spec len 1); cbn [andb]; try (split; [discriminate | tauto]).
  split; [intros [= <-]; auto | intros [(H & _)|(_ & _ & _ & ->)]; tauto].
Qed.
Example C35_weights_case : norm_wgts_w 2 1 (WBare [(1, 0); (2, 0)]) = Ok [[(1, 0)]; [(2, 0)]] /\ norm_wgts_w 2 2 (WBare [(1, 0); (2, 0)]) = Err /\
  norm_wgts 1 1 (WBare [(1, 0)]) = Err.
Proof. auto. Qed.
Section C35.
(* the projection of a uv matrix to another w, and rounding to an integer *)
Variables (wproj : R -> (Z -> C) -> (Z -> C)) (rnd : R -> Z).
Definition wmean (uvw : list (R * R * R)) (c : list nat) : R := mean (map (fun k => snd (nth k uvw (0, 0, 0))) c).
Theorem C35_put W fuel wres order im uvw data w ws :
  windows 3 W -> 0 < wres -> (0 < i_n im)%Z -> (0 < length uvw <= fuel)%nat ->
  argsorts (map snd uvw) order -> norm_wgts_w (length (i_bm im)) (length data) w = Ok ws -> length ws = length (i_bm im) ->
  length data = length uvw -> Forall (fun l => length l = length uvw) ws ->
  exists im' cs gs hs, imgw_put wproj fuel wres order im uvw data w = Some (Ok im') /\ i_n im' = i_n im /\ i_res im' = i_res im /\
  w_planes wres (map snd uvw) cs /\
  (* each plane holds its own samples *)
  Forall2 (gridded W (i_n im) (i_res im) uvw data) cs gs /\
  Forall2 (fun c h => forall q, (q < length ws)%nat -> gridded W (i_n im) (i_res im) uvw (nth q ws []) c (nth q h zeros)) cs hs /\
  (* and is added once, projected from the mean w of its samples *)
  (forall k, i_uv im' k = cadd (i_uv im k) (csum (combine cs gs) (fun '(c, g) => wproj (wmean uvw c) g k))) /\
  length (i_bm im') = length (i_bm im) /\
  (forall q, (q < length ws)%nat -> forall k, nth q (i_bm im') zeros k = cadd (nth q (i_bm im) zeros k) (csum (combine cs hs) (fun '(c, h) => wproj (wmean uvw c) (nth q h zeros) k))).
Proof.
  intros HW WR N [L F] AS NW LW LD LWS. unfold imgw_put. destruct (Nat.eqb_spec (length uvw) 0); [lia|]. rewrite NW.
  replace (length data <? length uvw)%nat with false by (symmetry; apply Nat.ltb_ge; lia).
  match goal with |- context [existsb ?f ?l] => replace (existsb f l) with false end.
  2: { symmetry. apply not_true_is_false. rewrite existsb_exists. intros (l & I & H). rewrite Forall_forall in LWS. pose proof (LWS l I) as X. apply Nat.ltb_lt in H. unfold C in *. lia. }
  cbn [orb].
  destruct (planes_ok wres uvw order fuel WR L F AS) as (cs & E & EC & WP). rewrite E.
  destruct (put_chunks_ok wproj (fun _ => 0%Z) (i_n im) (i_res im) uvw data ws order N cs (i_uv im, i_bm im) (eq_sym LW)) as (gs & hs & [uv' bm'] & EP & L1 & L2 & L3 & F1 & F2 & S1 & S2).
  rewrite LW in EP. match goal with |- context [bind ?x _] => assert (EP' : x = Ok (uv', bm')) by exact EP; rewrite EP' end. cbn [bind]. cbn [fst snd] in *.
  assert (P : forall f, Permutation (T6 f) (W f)) by (intros f; eapply window_perm; [apply taps_window | apply HW]).
  exists (Img (i_n im) (i_res im) uv' bm'), (map (fun '(i, j) => slice i j order) cs), gs, hs. cbn [i_n i_res i_uv i_bm].
  split; auto. split; auto. split; auto. split; auto. split.
  { clear -F1 P. induction F1 as [|[i j] g cs gs H F1 IH]; cbn [map]; constructor; auto. eapply gridded_perm; eauto. }
  split.
  { clear -F2 P. induction F2 as [|[i j] g cs gs H F2 IH]; cbn [map]; constructor; auto. intros q Q. eapply gridded_perm; [eauto|]. apply H. auto. }
  split; [exact S1|]. split; [rewrite L3; auto | exact S2].
Qed.
Theorem C35_get W sq fuel wres order im bm0 bms cache uvw :
  windows 3 W -> (forall x, signed_sqrt x (sq x)) -> 0 < wres -> (0 < i_n im)%Z -> i_bm im = bm0 :: bms -> (2 <= length uvw <= fuel)%nat ->
  argsorts (map snd uvw) order ->
  let plane_of c := rnd (mean (map (fun k => sq (snd (nth k uvw (0, 0, 0)))) c) / wres) in
  exists out cache' cs planes, imgw_get wproj rnd fuel wres order im cache uvw = Some (Ok (out, cache')) /\
  w_planes wres (map snd uvw) cs /\ length out = length uvw /\
  (* the values of a plane's samples, in the caller's order, are read from that plane *)
  Forall2 (fun c plane => forall k, In k c -> is_quotient (interpolated W (i_n im) (i_res im) (fst plane) (nth k uvw (0, 0, 0)))
                                                           (interpolated W (i_n im) (i_res im) (snd plane) (nth k uvw (0, 0, 0))) (nth k out None)) cs planes /\
  (* a plane is the remembered one, or the projection of the matrices to the mean w of such samples *)
  Forall2 (fun c plane => find_plane cache (plane_of c) = Some plane \/
     (find_plane cache (plane_of c) = None /\ exists c', In c' cs /\ plane_of c' = plane_of c /\
        plane = (wproj (- wmean uvw c') (i_uv im), wproj (- wmean uvw c') bm0))) cs planes.
Proof.
  intros HW HS WR N EB [L F] AS plane_of. unfold imgw_get. destruct (Nat.ltb_spec (length uvw) 2); [lia|]. rewrite EB.
  destruct (planes_ok wres uvw order fuel WR ltac:(lia) F AS) as (cs & E & EC & WP). rewrite E.
  destruct (get_chunks_ok wproj rnd (i_n im) (i_res im) wres (i_uv im) bm0 uvw order N cs cache) as (planes & cache' & EG & LP & FP). rewrite EG. cbn [bind].
  set (cl := map (fun '(i, j) => slice i j order) cs) in *.
  assert (LC : length planes = length cl) by (unfold cl; rewrite map_length; auto).
  assert (P : forall f, Permutation (T6 f) (W f)) by (intros f; eapply window_perm; [apply taps_window | apply HW]).
  assert (PO : Permutation order (seq 0 (length uvw))) by (destruct AS as [AS _]; rewrite map_length in AS; auto).
  pose proof (deorder_vals (fun pl k => val (i_n im) (i_res im) pl (nth k uvw (0, 0, 0))) cl planes order (length uvw) LC EC PO) as DV. cbn zeta in DV.
  destruct DV as [LO DV]. eexists _, cache', cl, planes. split; [reflexivity|]. split; auto. split; [exact LO|]. split.
  - assert (G : forall c pl, In (c, pl) (combine cl planes) -> forall k, In k c -> is_quotient (interpolated W (i_n im) (i_res im) (fst pl) (nth k uvw (0, 0, 0)))
      (interpolated W (i_n im) (i_res im) (snd pl) (nth k uvw (0, 0, 0))) (nth k (take None (deorder order) (concat (map (fun '(c, pl) => map (fun k => val (i_n im) (i_res im) pl (nth k uvw (0, 0, 0))) c) (combine cl planes)))) None)).
    { intros c pl I k K. rewrite (DV c pl k I K). unfold val. rewrite <- !(interp_perm _ _ _ _ _ _ P). apply cdiv_quotient. }
    clear -LC G. revert LC G.
    generalize (take None (deorder order) (concat (map (fun '(c, pl) => map (fun k => val (i_n im) (i_res im) pl (nth k uvw (0, 0, 0))) c) (combine cl planes)))).
    intros out. clearbody cl. revert planes. induction cl as [|c cl IH]; intros [|pl planes] LC G; try discriminate; constructor.
    + intros k K. apply (G c pl); [left; auto | auto].
    + apply IH; auto. intros c' pl' I. apply G. right. auto.
  - assert (EP : forall c, plane_of c = pid rnd wres uvw c).
    { intros c. unfold plane_of, pid. do 3 f_equal. apply map_ext. intros k. generalize (snd (nth k uvw (0, 0, 0))). intros x.
      destruct (HS x) as [A1 A2], (ssqrt_spec x) as [B1 B2]. destruct (Rle_lt_dec 0 x) as [H1|H1]; [destruct (A1 H1), (B1 H1) | destruct (A2 H1), (B2 H1)]; nra. }
    eapply Forall2_impl; [|exact FP]. intros c pl. rewrite EP. intros [H1|(H1 & c' & I & E1 & E2)]; [left; auto|]. right. split; auto. exists c'. rewrite EP. auto.
Qed.
(* when the resolution is not positive the loop does not advance *)
Theorem C35_zero_wres_refuted : exists uvw order, argsorts (map snd uvw) order /\ (0 < length uvw)%nat /\
  forall fuel im, length (i_bm im) = 1%nat -> imgw_put wproj fuel 0 order im uvw [(1, 0)] WNone = None.
Proof.
  exists [(1, 0, 0)], [0%nat]. split; [split; [reflexivity | repeat constructor]|]. split; [auto|]. intros fuel im LB. unfold imgw_put. cbn [length Nat.eqb]. cbn [norm_wgts_w norm_wgts]. rewrite LB.
  cbn [take map nth w_of snd]. cbn [length Nat.ltb Nat.leb existsb orb repeat Nat.sub]. rewrite chunks_zero_hang; [reflexivity | cbn; lia | cbn; intros x [<- | []]; auto].
Qed.
(* a single sample cannot be read back *)
Theorem C35_get_single_refuted : exists uvw, length uvw = 1%nat /\ forall fuel wres order im cache, imgw_get wproj rnd fuel wres order im cache uvw = Some Err.
Proof. exists [(1, 0, 0)]. split; reflexivity. Qed.
End C35.
(* samples to which the theorems apply: three w's, in two planes *)
Example C35_case : argsorts (map snd [(1, 2, 4); (3, 1, -1); (0, 5, 1)]) [1; 2; 0]%nat /\ (exists W, windows 3 W) /\
  norm_wgts_w 1 3 (WBare [(1, 0); (1, 0); (1, 0)]) = Ok [[(1, 0); (1, 0); (1, 0)]].
Proof.
  split.
  - split; [cbn; apply NoDup_Permutation; [repeat constructor; cbn; lia | repeat constructor; cbn; lia | cbn; lia]|].
    cbn. repeat constructor; lra.
  - split; [|reflexivity]. exists (fun f => taps f 6). intros f. apply (taps_window f 6).
Qed.
(* planes, once projected, are kept: whatever is put (or left out) afterwards, the next get
   returns the values of before *)
Theorem C35_get_stale_refuted wproj rnd fuel wres order im cache uvw out cache' :
  imgw_get wproj rnd fuel wres order im cache uvw = Some (Ok (out, cache')) ->
  forall im', i_n im' = i_n im -> i_res im' = i_res im -> i_bm im' <> [] -> imgw_get wproj rnd fuel wres order im' cache' uvw = Some (Ok (out, cache')).
Proof.
  assert (M : forall n res uv bm uvw cs cache d cache', get_chunks wproj rnd n res wres uv bm uvw cs cache = Ok (d, cache') ->
    (forall id p, find_plane cache id = Some p -> find_plane cache' id = Some p) /\ forall uv' bm', get_chunks wproj rnd n res wres uv' bm' uvw cs cache' = Ok (d, cache')).
  { clear. intros n res uv bm uvw. induction cs as [|[i j] cs IH]; intros cache d cache' E; cbn [get_chunks] in *.
    - injection E as <- <-. auto.
    - set (sl := slice i j uvw) in *. set (id := rnd _) in *.
      assert (X : exists p c1 d1 d2, find_plane c1 id = Some p /\ (forall id p, find_plane cache id = Some p -> find_plane c1 id = Some p) /\ get_uv n res sl (fst p) (snd p) = Ok d1 /\
        get_chunks wproj rnd n res wres uv bm uvw cs c1 = Ok (d2, cache') /\ d = d1 ++ d2).
      { destruct (find_plane cache id) as [p|] eqn:EF.
        - destruct (get_uv n res sl (fst p) (snd p)) as [d1|] eqn:EG; [|discriminate]. cbn [bind] in E.
          destruct (get_chunks wproj rnd n res wres uv bm uvw cs cache) as [[d2 c2]|] eqn:EC; [|discriminate]. cbn [bind] in E. injection E as <- <-.
          exists p, cache, d1, d2. auto.
        - set (p := (wproj (- avg (map w_of sl)) uv, wproj (- avg (map w_of sl)) bm)) in *.
          destruct (get_uv n res sl (fst p) (snd p)) as [d1|] eqn:EG; [|discriminate]. cbn [bind] in E.
          destruct (get_chunks wproj rnd n res wres uv bm uvw cs ((id, p) :: cache)) as [[d2 c2]|] eqn:EC; [|discriminate]. cbn [bind] in E. injection E as <- <-.
          exists p, ((id, p) :: cache), d1, d2. split; [cbn; rewrite Z.eqb_refl; auto|]. split; auto.
          intros id' p' H. cbn. destruct (Z.eqb_spec id id') as [<-|]; [congruence | auto]. }
      destruct X as (p & c1 & d1 & d2 & E1 & E2 & E3 & E4 & ->). destruct (IH _ _ _ E4) as [I1 I2]. split; auto.
      intros uv' bm'. rewrite (I1 _ _ E1). rewrite E3. cbn [bind]. rewrite I2. reflexivity. }
  unfold imgw_get. destruct (length uvw <? 2)%nat; [discriminate|]. intros E im' EN ER NB.
  destruct (i_bm im) as [|b bs]; [destruct (chunks _ _ _ _); discriminate|]. destruct (chunks _ _ _ _) as [cs|]; [|discriminate].
  destruct (get_chunks _ _ _ _ _ _ _ _ _ _) as [[d c]|] eqn:EG; [|discriminate]. cbn [bind] in E. injection E as <- <-.
  destruct (M _ _ _ _ _ _ _ _ _ EG) as [_ M2]. destruct (i_bm im') as [|b' bs']; [congruence|]. rewrite EN, ER, M2. reflexivity.
Qed.
Lemma csum_zeros {A} (l : list A) : csum l (fun _ => (0, 0)) = (0, 0).
Proof. unfold csum. cbn [fst snd]. f_equal; induction l as [|x l IH]; cbn [rsum]; auto; rewrite IH; ring. Qed.
(* put and get disagree on the axes: a visibility put at (u, v) = (20, 0) is nan when read at (20, 0) *)
Theorem C35_get_transposed_refuted : exists im uvw data im', put im [uvw] [data] WNone = Ok im' /\ i_bm im <> [] /\
  get_uv (i_n im) (i_res im) [uvw] (i_uv im') (hd zeros (i_bm im')) = Ok [None].
Proof.
  exists (blank_img 64), (20, 0, 0), (1, 0). unfold put, blank_img, put_on. cbn [i_n i_res i_uv i_bm fst snd length]. unfold norm_wgts. cbn [length repeat Nat.sub bind].
  assert (H64 : (0 < 64)%Z) by lia.
  destruct (put_grid0 64 1 [(20, 0, 0)] [(1, 0)] [0%nat] H64) as (g & EG & G). cbn [take map nth] in EG. cbn [map].
  match goal with |- exists im', bind (bind ?x _) _ = _ /\ _ => assert (E1 : x = Ok g) by exact EG; rewrite E1 end. cbn [bind grid_all].
  match goal with |- exists im', bind (bind (bind ?x _) _) _ = _ /\ _ => assert (E2 : x = Ok g) by exact EG; rewrite E2 end. cbn [bind].
  eexists. split; [reflexivity|]. split; [discriminate|]. cbn [i_uv i_bm hd].
  pose proof (get_vals 64 1 [(20, 0, 0)] (g, g) H64) as EV. cbn [fst snd map] in EV. 
  match goal with |- ?x = _ => assert (E3 : x = Ok [val 64 1 (g, g) (20, 0, 0)]) by exact EV; rewrite E3 end. do 2 f_equal. unfold val. cbn [fst snd].
  assert (Z0 : interpolated T6 64 1 g (20, 0, 0) = (0, 0)).
  2: { rewrite Z0. unfold cdiv. destruct (Req_EM_T _ 0); auto. exfalso. apply n. unfold cnorm2. cbn. ring. }
  unfold interpolated. cbn [get_at].
  replace (csum (ring 64) _) with ((0, 0) : C). { cbn [fst snd]. f_equal; ring. }
  symmetry. transitivity (csum (ring 64) (fun _ => (0, 0))).
  2: { apply csum_zeros. }
  apply csum_ext. intros a A. transitivity (csum (ring 64) (fun _ => (0, 0))).
  2: { apply csum_zeros. }
  apply csum_ext. intros b B. apply in_ring in A, B. rewrite (G a b A B). cbn [csum rsum fold_right map nth put_at].
  assert (FZ : forall f1 f2, (forall j, In j (T6 f1) -> (j mod 64)%Z <> a) -> footprint T6 64 (f1, f2) a b = 0).
  { intros f1 f2 H. unfold footprint, foot2. cbn [fst snd]. revert H. generalize (T6 f1). intros l. induction l as [|j l IH]; intros H; cbn; auto.
    rewrite IH by (intros; apply H; right; auto). specialize (H j (or_introl eq_refl)). destruct (Z.eqb_spec (j mod 64) a); [congruence|]. cbn [andb].
    clear. induction (T6 f2) as [|x l IH]; cbn in *; [ring|]. lra. }
  destruct (Z_lt_dec 10 a) as [HA|HA]; [destruct (Z_lt_dec a 30) as [HB|HB]|].
  - rewrite csum_cons. cbn [put_at fst snd]. assert (F0 : footprint T6 64 (- 0 / 1, 20 / 1) a b = 0); [|rewrite F0; unfold csum, cadd; cbn [rsum fst snd]; f_equal; ring].
    apply FZ. intros j J E. pose proof (taps_window (- 0 / 1) 6) as [_ TW]. apply TW in J as [J1 J2]. change (Z.quot 6 2) with 3%Z in *.
    assert (-5 < j)%Z by (apply lt_IZR; lra). assert (j < 5)%Z by (apply lt_IZR; lra). pose proof (Z.div_mod j 64 ltac:(lia)). pose proof (Z.mod_pos_bound j 64 ltac:(lia)). lia.
  - replace (footprint T6 64 (20 / 1, - 0 / 1) a b) with 0. { f_equal; ring. }
    symmetry. apply FZ. intros j J E. pose proof (taps_window (20 / 1) 6) as [_ TW]. apply TW in J as [J1 J2]. change (Z.quot 6 2) with 3%Z in *.
    assert (15 < j)%Z by (apply lt_IZR; lra). assert (j < 25)%Z by (apply lt_IZR; lra). pose proof (Z.div_mod j 64 ltac:(lia)). pose proof (Z.mod_pos_bound j 64 ltac:(lia)). lia.
  - replace (footprint T6 64 (20 / 1, - 0 / 1) a b) with 0. { f_equal; ring. }
    symmetry. apply FZ. intros j J E. pose proof (taps_window (20 / 1) 6) as [_ TW]. apply TW in J as [J1 J2]. change (Z.quot 6 2) with 3%Z in *.
    assert (15 < j)%Z by (apply lt_IZR; lra). assert (j < 25)%Z by (apply lt_IZR; lra). pose proof (Z.div_mod j 64 ltac:(lia)). pose proof (Z.mod_pos_bound j 64 ltac:(lia)). lia.
Qed.
Print Assumptions C33_recenter. Print Assumptions C33_empty_axis_refuted. Print Assumptions C36_word_wrap. Print Assumptions C36_words_kept. Print Assumptions C36_narrow_refuted.
Print Assumptions C34_samples. Print Assumptions C34_put_hermitian. Print Assumptions C34_real_image. Print Assumptions C34_one_weight_refuted.
Print Assumptions C34_weights. Print Assumptions C35_weights. Print Assumptions C35_put. Print Assumptions C35_get. Print Assumptions C35_zero_wres_refuted. Print Assumptions C35_get_single_refuted. Print Assumptions C35_get_stale_refuted. Print Assumptions C35_get_transposed_refuted.
