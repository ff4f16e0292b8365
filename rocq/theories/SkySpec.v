(* SPEC: where the sky appears in an image. Directions are given by l (east) and m (north), sines of the distance from
   the centre of the field; times are complex numbers as pairs. *)
From Coq Require Import Reals.
From Verif Require Import Base CleanSpec GridSpec ImgSpec.
Open Scope R_scope.

Definition turns (t : R) : R * R := (cos (2 * PI * t), sin (2 * PI * t)).
Definition times (z w : R * R) : R * R := (fst z * fst w - snd z * snd w, fst z * snd w + snd z * fst w).
(* pixel number i of a ring of n, as a signed distance from pixel 0 *)
Definition signed (n i s : Z) : Prop := (exists k, i = s + k * n)%Z /\ (- n < 2 * s <= n)%Z.
(* row i, column j of an image with its origin at pixel (- c0, - c1) shows the direction (l, m): east is towards
   smaller columns *)
Definition shows (n : Z) (res : R) (c0 c1 i j : Z) (l m : R) : Prop :=
  exists a b, signed n (i + c0) a /\ signed n (j + c1) b /\ m = IZR a / (IZR n * res) /\ l = - IZR b / (IZR n * res).
(* spread of a sample over grid points, seen in the image *)
Definition spread (W : R -> list Z) (f t : R) : R * R := csum (W f) (fun j => times (exp (- 2 * ((f - IZR j) * (f - IZR j))), 0) (turns (IZR j * t))).
(* the same for samples on grid points: the taper of the image *)
Definition taper (t : R) : R :=
  1 + 2 * exp (-2) * cos (2 * PI * t) + 2 * exp (-8) * cos (2 * PI * (2 * t)) + 2 * exp (-18) * cos (2 * PI * (3 * t)).
(* a sample at a grid point of the uv matrix *)
Definition on_grid (res : R) (p : R * R * R) : Prop := exists a b, fst (fst p) = res * IZR a /\ snd (fst p) = res * IZR b.
(* phase in turns of direction (l, m) on the baseline (u, v) *)
Definition path (p : R * R * R) (l m : R) : R := fst (fst p) * l + snd (fst p) * m.
(* the same with w, relative to the centre of the field *)
Definition path_w (p : R * R * R) (l m : R) : R := path p l m + snd p * (sqrt (1 - l * l - m * m) - 1).
Definition scale2 : R := 0.63661977236758149.
(* circular convolution of square matrices *)
Definition circular (n : Z) (a b : Z -> R * R) (i j : Z) : R * R :=
  csum (ring n) (fun p => csum (ring n) (fun q => times (a (p * n + q)%Z) (b ((i - p) mod n * n + (j - q) mod n)%Z))).
(* vectors: east, north and the direction itself at right ascension ra and declination dec *)
Definition pole_frame (ra dec l m k : R) : R * R * R :=
  (l * - sin ra + m * (- sin dec * cos ra) + k * (cos dec * cos ra),
   l * cos ra + m * (- sin dec * sin ra) + k * (cos dec * sin ra),
   m * cos dec + k * sin dec).
(* samples fall into groups of one w each, further apart than wres in signed square root *)
Definition separated (wres : R) (uvw : list (R * R * R)) : Prop :=
  forall p q s t, In p uvw -> In q uvw -> signed_sqrt (snd p) s -> signed_sqrt (snd q) t -> s - t < wres -> t - s < wres -> snd p = snd q.
