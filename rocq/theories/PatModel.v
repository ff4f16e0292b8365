(* Beam patterns: what response computes for one active frequency and one topocentric vector
   (aipy/amp.py:120-182); the b_pat of ArrModel. Exact reals; vectors are unit vectors (numpy's arcsin
   gives nan for coordinates beyond 1, Coq's does not). BeamAlm is not modelled. *)
From Coq Require Import Reals.
From Verif Require Import Base CleanModel GeoModel ArrModel.
Open Scope R_scope.
(* amp.py:118-123 Beam.response *)
Definition flat_pat (f : R) (v : vec) : C := (1, 0).
(* amp.py:125-143 Beam2DGaussian; None is a width of numpy.inf *)
Definition over (x : R) (w : option R) : R := match w with None => 0 | Some w => x / w end.
Definition gauss_pat (xw yw : option R) (f : R) (v : vec) : C :=
  let '(x, y, z) := v in
  let a := over (asin x) xw in let b := over (asin y) yw in
  (sqrt (exp (- (1 / 2) * (a ^ 2 + b ^ 2))), 0).
(* amp.py:145-182 BeamPolynomial: sigma row n is sum_k poly[n][k] f**k; its weight is cos(2 n az), 1/2 for n = 0 *)
Fixpoint powers (cs : list R) (f : R) (k : nat) : R := match cs with [] => 0 | c :: r => c * f ^ k + powers r f (S k) end.
Fixpoint harmonics (rows : list (list R)) (f az : R) (n : nat) : R :=
  match rows with
  | [] => 0
  | row :: r => (match n with O => 1 / 2 | _ => cos (az * (2 * INR n)) end) * powers row f 0 + harmonics r f az (S n)
  end.
Definition poly_pat (poly : list (list R)) (f : R) (v : vec) : C :=
  let '(az, alt) := top2azalt v in
  let zang := PI / 2 - alt in
  let s := harmonics poly f az 0 in
  (sqrt (exp (- (zang / s) ^ 2)), 0).
