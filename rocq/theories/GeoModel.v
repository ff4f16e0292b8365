(* Rotations and coordinates: aipy/coord.py. Simplifications: exact reals, so no signed zeros; one
   vector or angle at a time (the code maps the same formulas over arrays); masks of masked
   arrays are left out; numpy.linalg.inv is the exact inverse, the precession between epochs
   done by ephem is a parameter. *)
From Coq Require Import Reals.
From Verif Require Import Base.
Open Scope R_scope.
Definition vec := (R * R * R)%type.
Definition mat := (vec * vec * vec)%type.     (* rows *)
Definition dot (a b : vec) : R := let '(a1, a2, a3) := a in let '(b1, b2, b3) := b in a1 * b1 + a2 * b2 + a3 * b3.
(* np.dot(m, v), np.dot(m, n) *)
Definition mv (m : mat) (v : vec) : vec := let '(r1, r2, r3) := m in (dot r1 v, dot r2 v, dot r3 v).
Definition transpose (m : mat) : mat :=
  let '((a, b, c), (d, e, f), (g, h, i)) := m in ((a, d, g), (b, e, h), (c, f, i)).
Definition mm (m n : mat) : mat :=
  let '(r1, r2, r3) := m in let t := transpose n in (mv t r1, mv t r2, mv t r3).
Definition det (m : mat) : R :=
  let '((a, b, c), (d, e, f), (g, h, i)) := m in a * (e * i - f * h) - b * (d * i - f * g) + c * (d * h - e * g).
(* numpy.linalg.inv: LinAlgError for a singular matrix *)
Definition inv (m : mat) : res mat :=
  if Req_EM_T (det m) 0 then Err else
  let '((a, b, c), (d, e, f), (g, h, i)) := m in let q := det m in
  Ok (((e * i - f * h) / q, (c * h - b * i) / q, (b * f - c * e) / q),
      ((f * g - d * i) / q, (a * i - c * g) / q, (c * d - a * f) / q),
      ((d * h - e * g) / q, (b * g - a * h) / q, (a * e - b * d) / q)).

(* coord.py:40-57 rot_m *)
Definition rot_m (ang : R) (v : vec) : mat :=
  let c := cos ang in let s := sin ang in let C := 1 - c in
  let '(x, y, z) := v in
  let xs := x * s in let ys := y * s in let zs := z * s in
  let xC := x * C in let yC := y * C in let zC := z * C in
  let xyC := x * yC in let yzC := y * zC in let zxC := z * xC in
  ((x * xC + c, xyC - zs, zxC + ys), (xyC + zs, y * yC + c, yzC - xs), (zxC - ys, yzC + xs, z * zC + c)).
(* coord.py:127-137 eq2top_m *)
Definition eq2top_m (ha dec : R) : mat :=
  let sin_H := sin ha in let cos_H := cos ha in let sin_d := sin dec in let cos_d := cos dec in
  ((sin_H, cos_H, 0), (- sin_d * cos_H, sin_d * sin_H, cos_d), (cos_d * cos_H, - cos_d * sin_H, sin_d)).
(* coord.py:139-146 top2eq_m *)
Definition top2eq_m (ha dec : R) : res mat := inv (eq2top_m ha dec).

(* numpy.arctan2 *)
Definition atan2 (y x : R) : R :=
  if Rlt_dec 0 x then atan (y / x)
  else if Rlt_dec x 0 then if Rle_dec 0 y then atan (y / x) + PI else atan (y / x) - PI
  else if Rlt_dec 0 y then PI / 2 else if Rlt_dec y 0 then - (PI / 2) else 0.
(* coord.py:59-71 xyz2thphi *)
Definition xyz2thphi (v : vec) : R * R :=
  let '(x, y, z) := v in
  let phi := atan2 y x in
  let th := atan2 (sqrt (x * x + y * y)) z in
  (th, phi).
(* coord.py:73-86 thphi2xyz *)
Definition thphi2xyz (a : R * R) : vec :=
  let '(th, phi) := a in
  let z := cos th in let r := sin th in
  let x := r * cos phi in let y := r * sin phi in (x, y, z).
(* coord.py:88-96 eq2radec *)
Definition eq2radec (v : vec) : R * R :=
  let '(th, phi) := xyz2thphi v in
  let dec := PI / 2 - th in
  let ra := if Rlt_dec phi 0 then phi + 2 * PI else phi in (ra, dec).
(* coord.py:98-102 radec2eq *)
Definition radec2eq (a : R * R) : vec := let '(phi, th) := a in thphi2xyz (PI / 2 - th, phi).
(* coord.py:104-108 latlong2xyz *)
Definition latlong2xyz (a : R * R) : vec := let '(lat, long) := a in radec2eq (long, lat).
(* coord.py:110-119 top2azalt *)
Definition top2azalt (v : vec) : R * R :=
  let '(th, phi) := xyz2thphi v in
  let alt := PI / 2 - th in
  let az := PI / 2 - phi in
  let az := if Rlt_dec az 0 then az + 2 * PI else az in (az, alt).
(* coord.py:121-125 azalt2top *)
Definition azalt2top (a : R * R) : vec := let '(az, alt) := a in thphi2xyz (PI / 2 - alt, PI / 2 - az).

(* coord.py:20-38: eph is what ephem makes of (ra, dec) between the two systems and epochs *)
Section Convert.
Variable eph : R * R -> R * R.
Definition convert (v : vec) : R * R := eph (eq2radec v).
Definition set_col (m : mat) (i : nat) (v : vec) : mat :=
  let '((a, b, c), (d, e, f), (g, h, k)) := m in let '(x, y, z) := v in
  match i with O => ((x, b, c), (y, e, f), (z, h, k)) | 1%nat => ((a, x, c), (d, y, f), (g, z, k)) | _ => ((a, b, x), (d, e, y), (g, h, z)) end.
Definition col (m : mat) (i : nat) : vec :=
  let '(r1, r2, r3) := transpose m in match i with O => r1 | 1%nat => r2 | _ => r3 end.
Definition convert_m : mat :=
  fold_left (fun m i => set_col m i (radec2eq (convert (col m i)))) [0; 1; 2]%nat ((1, 0, 0), (0, 1, 0), (0, 0, 1)).
End Convert.
