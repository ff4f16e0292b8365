(* What healpix maps, averaged maps and coefficient tables promise, without reference to how
   they are stored or updated. *)
From Coq Require Import Reals.
From Verif Require Import Base CleanSpec HpxModel.
Open Scope Z_scope.

(* index i addresses pixel k of n: numpy counts a negative index from the end *)
Definition hits (n i k : Z) : bool := (i =? k) || (i =? k - n).
Definition valid_px (n i : Z) : Prop := - n <= i < n.
(* the sum of the values addressed to pixel k *)
Definition sum_at (n : Z) (px : list Z) (vals : list R) (k : Z) : R :=
  rsum (combine px vals) (fun '(i, v) => if hits n i k then v else 0%R).
Definition count_at (n : Z) (px : list Z) (k : Z) : R := rsum px (fun i => if hits n i k then 1%R else 0%R).
Definition addressed_px (n : Z) (px : list Z) (k : Z) : Prop := exists i, In i px /\ hits n i k = true.
Definition px (m : list R) (k : Z) : R := nth (Z.to_nat k) m 0%R.
(* assignment: sums at the addressed pixels, nothing else changes *)
Definition assigned (ps : list Z) (vals : list R) (old new : list R) : Prop :=
  length new = length old /\ forall k, 0 <= k < lenZ old ->
  (addressed_px (lenZ old) ps k -> px new k = sum_at (lenZ old) ps vals k) /\
  (~ addressed_px (lenZ old) ps k -> px new k = px old k).
Definition total (m : list R) : R := rsum m (fun x => x).

(* a map of a size add2array can index: nside <= 8192 *)
Definition good_nside (n : Z) : Prop := (exists k, 0 <= k <= 13 /\ n = 2 ^ k).
Definition good (h : hpm) : Prop := good_nside (h_nside h) /\ lenZ (h_map h) = 12 * (h_nside h * h_nside h).

(* what healpy promises about its pixelization, for sides that are powers of two *)
Record healpix (Dir : Type) (ring2nest nest2ring : Z -> Z -> Z) (pixel : Z -> scheme -> Dir -> Z)
  (centre : Z -> scheme -> Z -> Dir) : Prop := {
  hx_r2n : forall n p, good_nside n -> 0 <= p < 12 * (n * n) -> 0 <= ring2nest n p < 12 * (n * n) /\ nest2ring n (ring2nest n p) = p;
  hx_n2r : forall n p, good_nside n -> 0 <= p < 12 * (n * n) -> 0 <= nest2ring n p < 12 * (n * n) /\ ring2nest n (nest2ring n p) = p;
  hx_range : forall n s d, good_nside n -> 0 <= pixel n s d < 12 * (n * n);
  hx_centre : forall n s p, good_nside n -> 0 <= p < 12 * (n * n) -> pixel n s (centre n s p) = p;
  hx_same : forall n d, good_nside n -> pixel n NEST d = ring2nest n (pixel n RING d);
  (* a finer pixel lies inside the coarser pixel *)
  hx_inside : forall n s n' s' d, good_nside n -> good_nside n' -> n <= n' ->
    pixel n s (centre n' s' (pixel n' s' d)) = pixel n s d }.
(* the value a map gives the direction d: the sky it shows *)
Definition sky {Dir} (pixel : Z -> scheme -> Dir -> Z) (h : hpm) (d : Dir) : R := px (h_map h) (pixel (h_nside h) (h_scheme h) d).

(* ---- averaged maps ---- *)
(* one call of Map.add *)
Record addition Dir := Add { ad_crd : crd Dir; ad_wgts : list R; ad_fluxes : list R; ad_inds : list (list R) }.
Arguments Add {Dir}. Arguments ad_crd {Dir}. Arguments ad_wgts {Dir}. Arguments ad_fluxes {Dir}. Arguments ad_inds {Dir}.
(* sum of weight * value over what is addressed to pixel k *)
Definition wsum (n : Z) (ps : list Z) (w v : list R) (k : Z) : R :=
  rsum (combine ps (combine w v)) (fun '(i, (w, v)) => if hits n i k then (w * v)%R else 0%R).
(* a map all of whose parts have side n and scheme s and are read without interpolation *)
Definition part_of (n : Z) (s : scheme) (h : hpm) : Prop := good h /\ h_nside h = n /\ h_scheme h = s /\ h_interp h = false.
Definition sky_of (n : Z) (s : scheme) (k : skymap) : Prop := part_of n s (k_map k) /\ part_of n s (k_wgt k) /\ Forall (part_of n s) (k_ind k).
(* the pixels a coordinate stands for *)
Definition pixels_of {Dir} (pixel : Z -> scheme -> Dir -> Z) (n : Z) (s : scheme) (c : crd Dir) : list Z :=
  match c with Px _ l => l | At _ ds => map (pixel n s) ds end.
Definition valid_addition {Dir} (pixel : Z -> scheme -> Dir -> Z) (n : Z) (s : scheme) (nind : nat) (a : addition Dir) : Prop :=
  let ps := pixels_of pixel n s (ad_crd a) in
  Forall (fun p => 0 <= p < 12 * (n * n)) ps /\ length (ad_wgts a) = length ps /\ length (ad_fluxes a) = length ps /\
  length (ad_inds a) = nind /\ Forall (fun v => length v = length ps) (ad_inds a).
Definition no_repeats {Dir} (pixel : Z -> scheme -> Dir -> Z) (n : Z) (s : scheme) (a : addition Dir) : Prop :=
  NoDup (pixels_of pixel n s (ad_crd a)).
(* the effect of one add on one of the maps: what a pixel held counts once for every time the
   call addresses the pixel *)
Definition after_add (n : Z) (ps : list Z) (s : Z -> R) (h h' : hpm) : Prop :=
  h_nside h' = h_nside h /\ h_scheme h' = h_scheme h /\ h_interp h' = h_interp h /\ length (h_map h') = length (h_map h) /\
  forall k, 0 <= k < n -> (addressed_px n ps k -> px (h_map h') k = count_at n ps k * px (h_map h) k + s k)%R /\
                          (~ addressed_px n ps k -> px (h_map h') k = px (h_map h) k).
Section Hist.
Context {Dir : Type} (pixel : Z -> scheme -> Dir -> Z) (interp_weights : Z -> scheme -> Dir -> list (Z * R)).
Definition add_result (n : Z) (s : scheme) (a : addition Dir) (k k' : skymap) : Prop :=
  let ps := pixels_of pixel n s (ad_crd a) in let N := 12 * (n * n) in
  after_add N ps (sum_at N ps (ad_wgts a)) (k_wgt k) (k_wgt k') /\
  after_add N ps (wsum N ps (ad_wgts a) (ad_fluxes a)) (k_map k) (k_map k') /\
  Forall2 (fun hv h' => after_add N ps (wsum N ps (ad_wgts a) (snd hv)) (fst hv) h') (combine (k_ind k) (ad_inds a)) (k_ind k').
(* a history of add calls *)
Fixpoint run_adds (k : skymap) (l : list (addition Dir)) : res skymap :=
  match l with [] => Ok k | a :: l => bind (map_add Dir pixel interp_weights k (ad_crd a) (ad_wgts a) (ad_fluxes a) (ad_inds a)) (fun k => run_adds k l) end.
(* over a whole history: the weight, and the weighted value, given to pixel p *)
Definition tot_w n s (adds : list (addition Dir)) (p : Z) : R :=
  rsum adds (fun a => sum_at (12 * (n * n)) (pixels_of pixel n s (ad_crd a)) (ad_wgts a) p).
Definition tot_v (v : addition Dir -> list R) n s (adds : list (addition Dir)) (p : Z) : R :=
  rsum adds (fun a => wsum (12 * (n * n)) (pixels_of pixel n s (ad_crd a)) (ad_wgts a) (v a) p).
End Hist.

(* ---- coefficient tables ---- *)
(* the (l, m) a table with these limits holds *)
Definition valid_lm (L M : Z) (lm : Z * Z) : Prop := 0 <= snd lm /\ snd lm <= fst lm /\ fst lm <= L /\ snd lm <= M.
