(* Interpolation of samples: aipy/interp.py. Values are exact reals, except for the number of
   taps of the filter, which numpy's arange finds in double precision (tap_count below). numpy's
   polyfit is a parameter, its contract is in InterpSpec.v. *)
From Coq Require Import Reals.
From Flocq Require Import Core IEEE754.BinarySingleNaN IEEE754.Binary IEEE754.Bits.
From Verif Require Import Base.
Open Scope Z_scope.

(* np.arange(start, stop, step) has ceil((stop - start) / step) elements; here start = -order,
   stop = order + step and step = 1. / factor (interp.py:56, 59) *)
Definition b64_of_Z (z : Z) : binary64 := binary_normalize 53 1024 eq_refl eq_refl mode_NE z 0 false.
Definition b64_ceil (x : binary64) : Z :=
  match x with
  | B754_finite _ _ s m e _ => let v := cond_Zopp s (Zpos m) in if 0 <=? e then v * 2 ^ e else - ((- v) / 2 ^ (- e))
  | _ => 0
  end.
Definition tap_count (order factor : Z) : Z :=
  let step := b64_div mode_NE (b64_of_Z 1) (b64_of_Z factor) in
  let stop := b64_plus mode_NE (b64_of_Z order) step in
  Z.max 0 (b64_ceil (b64_div mode_NE (b64_minus mode_NE stop (b64_of_Z (- order))) step)).

Open Scope R_scope.
(* np.polyval: the highest power comes first *)
Definition polyval (p : list R) (x : R) : R := fold_left (fun acc c => acc * x + c) p 0.
(* np.arange(lo, lo + n) *)
Definition grid (lo : Z) (n : nat) : list R := map (fun k => IZR (lo + Z.of_nat k)) (seq 0 n).
(* interp.py:18-23 *)
Definition subsample (a : list R) (factor : nat) : list R * list R :=
  (flat_map (fun y => y :: repeat 0 (factor - 1)) a, flat_map (fun _ => 1 :: repeat 0 (factor - 1)) a).
(* np.sinc *)
Definition sinc (x : R) : R := if Req_EM_T x 0 then 1 else sin (PI * x) / (PI * x).
(* interp.py:37-42 *)
Definition default_filter (freq : R) (xs : list R) : list R :=
  map (fun '(i, x) => (1 - cos (INR i / INR (length xs) * 2 * PI)) * sinc (freq * x)) (combine (seq 0 (length xs)) xs).
(* np.convolve(a, v, mode='valid'): the longer array is slid over; an empty one is a ValueError *)
Fixpoint dot (a b : list R) : R := match a, b with x :: a, y :: b => x * y + dot a b | _, _ => 0 end.
Definition slide (a v : list R) : list R := map (fun m => dot (rev v) (skipn m a)) (seq 0 (length a - length v + 1)).
Definition convolve (a v : list R) : res (list R) :=
  match a, v with
  | [], _ | _, [] => Err
  | _, _ => Ok (if (length v <=? length a)%nat then slide a v else slide v a)
  end.

Section Interp.
Variable polyfit : list R -> list R -> nat -> list R.
(* interp.py:25-35; polyfit raises TypeError on no samples, or fewer of y than of x *)
Definition polyextend (y : list R) (n : nat) (degree : nat) : res (list R) :=
  if (n =? 0)%nat || (length y <? n)%nat then Err
  else let p0 := polyfit (grid 0 n) (firstn n y) degree in
       let p1 := polyfit (grid (1 - Z.of_nat n) n) (skipn (length y - n) y) degree in
       Ok (map (polyval p0) (grid (- Z.of_nat n) n) ++ y ++ map (polyval p1) (grid 1 n)).
(* interp.py:44-63; the samples of the filter lie at -order + k / factor, k < taps *)
Definition tap_grid (order factor taps : nat) : list R := map (fun k => - INR order + INR k / INR factor) (seq 0 taps).
Definition divide (a b : list R) : list R := map (fun '(x, w) => x / w) (combine a b).
Definition interpolate_with (filter : list R -> list R) (taps : nat) (ys : list R) (factor order : nat) : res (list R) :=
  if (factor =? 0)%nat then Err
  else bind (polyextend ys order 2) (fun e =>
       let '(ss, wgts) := subsample e factor in
       let fir := filter (tap_grid order factor taps) in
       bind (convolve ss fir) (fun a => bind (convolve wgts fir) (fun b => Ok (divide a b)))).
Definition interpolate (filter : list R -> list R) (ys : list R) (factor order : nat) : res (list R) :=
  interpolate_with filter (Z.to_nat (tap_count (Z.of_nat order) (Z.of_nat factor))) ys factor order.
End Interp.
