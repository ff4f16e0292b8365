(* Windows: aipy/dsp.py:8-56. Simplifications: samples are exact reals; where numpy divides by
   zero (L = 1) and gives NaN, the model's real division gives an unspecified number; i0
   (scipy.special) is a parameter. *)
From Coq Require Import Reals String.
From Verif Require Import Base CleanModel GridModel.
Open Scope R_scope.
Local Notation length := List.length.

(* what a window function returns: one number or an array *)
Inductive value := Num (x : R) | Arr (l : list R).
(* python slice l[a:b] *)
Definition bound (n i : Z) : nat := Z.to_nat (if (i <? 0)%Z then Z.max 0 (i + n) else Z.min i n).
Definition slice (l : list R) (a b : Z) : list R :=
  let n := Z.of_nat (length l) in firstn (bound n b - bound n a) (skipn (bound n a) l).

Section Windows.
Variable i0 : R -> R.
Section Length.
Variable L : Z.
Local Notation N := (IZR L - 1).
(* dsp.py:39-46, one sample at x *)
Definition blackman x := 42/100 - 1/2 * cos (2 * PI * x / N) + 8/100 * cos (4 * PI * x / N).
Definition blackman_harris x := 35875/100000 - 48829/100000 * cos (2 * PI * x / N) + 14128/100000 * cos (4 * PI * x / N) - 1168/100000 * cos (6 * PI * x / N).
Definition gaussian04 x := exp (- (1/2) * (((x - N / 2) / (4/10 * N / 2)) * ((x - N / 2) / (4/10 * N / 2)))).
Definition kaiser b x := i0 (PI * b * sqrt (1 - (2 * x / N - 1) * (2 * x / N - 1))) / i0 (PI * b).
Definition hamming x := 54/100 - 46/100 * cos (2 * PI * x / N).
Definition hanning x := 1/2 - 1/2 * cos (2 * PI * x / N).
Definition parzen x := 1 - Rabs (IZR L / 2 - x) / (IZR L / 2).
(* dsp.py:8-28 *)
Definition tukey_lo alpha x := 1/2 * (1 + cos (PI * (-1 + 2 * x / alpha / N))).
Definition tukey_hi alpha x := 1/2 * (1 + cos (PI * (- 2 / alpha + 1 + 2 * x / alpha / N))).
Definition tukey (alpha : R) (x : list R) : list R :=
  if Rle_dec alpha 0 then repeat 1 (Z.to_nat L)
  else if Rle_dec 1 alpha then map hanning x
  else let width := floorR (alpha * N / 2) in
       let x1 := slice x 0 (width + 1) in
       let x2 := slice x (width + 1) (L - width - 1) in
       let x3 := slice x (L - width - 1) (Z.of_nat (length x)) in
       map (tukey_lo alpha) x1 ++ map (fun _ => 1) x2 ++ map (tukey_hi alpha) x3.
(* dsp.py:30-36: x is made again as arange(0, L) *)
Definition barthann_at x := let fac := Rabs (x / N - 1/2) in 62/100 - 48/100 * fac + 38/100 * cos (2 * PI * fac).
Definition indices : list R := map INR (seq 0 (Z.to_nat L)).
(* dsp.py:38-51: only tukey takes a keyword; an unknown name is KeyError *)
Definition window_func (name : string) (alpha : option R) (x : list R) : res value :=
  let plain f := match alpha with None => Ok (Arr (map f x)) | Some _ => Err end in
  if (name =? "blackman")%string then plain blackman
  else if (name =? "blackman-harris")%string then plain blackman_harris
  else if (name =? "gaussian0.4")%string then plain gaussian04
  else if (name =? "kaiser2")%string then plain (kaiser 2)
  else if (name =? "kaiser3")%string then plain (kaiser 3)
  else if (name =? "hamming")%string then plain hamming
  else if (name =? "hanning")%string then plain hanning
  else if (name =? "parzen")%string then plain parzen
  else if (name =? "none")%string then match alpha with None => Ok (Num 1) | Some _ => Err end
  else if (name =? "tukey")%string then Ok (Arr (tukey (match alpha with Some a => a | None => 1/2 end) x))
  else if (name =? "barthann")%string then match alpha with None => Ok (Arr (map barthann_at indices)) | Some _ => Err end
  else Err.
End Length.
(* dsp.py:53-55: fromfunction calls the function once on the array of indices *)
Definition gen_window (L : Z) (name : string) (alpha : option R) : res value :=
  if (L <? 0)%Z then Err else window_func L name alpha (indices L).
End Windows.
