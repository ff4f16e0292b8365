(* Baseline codes: Python, C wrapper macros and the MIRIAD library. *)
From Verif Require Import Base.

(* aipy/miriad.py:301-304  def ij2bl(i, j).
   Python ints are unbounded: Z. *)
Definition ij2bl (i j : Z) : Z :=
  let '(i, j) := if i >? j then (j, i) else (i, j) in
  if j + 1 <? 256 then 256 * (i + 1) + (j + 1)
  else 2048 * (i + 1) + (j + 1) + 65536.

(* aipy/miriad.py:291-299  def bl2ij(bl).
   The argument is taken after bl = int(bl) (line 292); // and % are Python's
   floor division, which is Z.div / Z.modulo for a positive divisor. *)
Definition bl2ij (bl : Z) : Z * Z :=
  let '(bl, mant) := if bl >? 65536 then (bl - 65536, 2048) else (bl, 256) in
  (bl / mant - 1, bl mod mant - 1).

(* C cast (float) of an int: round to a 24-bit significand, ties to even.
   Simplification: result kept as the integer it denotes. *)
Definition f32_of_int (n : Z) : Z :=
  let a := Z.abs n in
  let e := Z.max 0 (Z.log2 a - 23) in
  let p := 2 ^ e in
  let q := a / p in
  let r := a mod p in
  let q' := if 2 * r >? p then q + 1
            else if 2 * r =? p then (if Z.even q then q else q + 1)
            else q in
  Z.sgn n * (q' * p).

(* aipy/_miriad/miriad_wrap.h:15  #define MKBL(i,j) *)
Definition mkbl (i j : Z) : Z :=
  if (i + 1 <? 256) && (j + 1 <? 256)
  then f32_of_int (Z.lor (Z.shiftl (i + 1) 8) (j + 1))
  else f32_of_int ((i + 1) * 2048 + (j + 1 + 65536)).

(* aipy/_miriad/miriad_wrap.h:13  #define GETI(bl); C / truncates: Z.quot *)
Definition geti (bl : Z) : Z :=
  if bl >? 65536 then Z.quot (bl - 65536) 2048 - 1 else Z.shiftr bl 8 - 1.

(* aipy/_miriad/miriad_wrap.h:14  #define GETJ(bl); C % truncates: Z.rem *)
Definition getj (bl : Z) : Z :=
  if bl >? 65536 then Z.rem (bl - 65536) 2048 - 1 else Z.land bl 255 - 1.

(* aipy/_miriad/mir/uvio.c:4893-4905  uvbasant_c; antenna numbers are 1-based
   here. MAXIANT = 2048. *)
Definition uvbasant (baseline : Z) : Z * Z :=
  let '(b, mant) := if baseline >? 65536 then (baseline - 65536, 2048) else (baseline, 256) in
  (Z.quot b mant, Z.rem b mant).

(* aipy/pol.py:17-18  def ijp2blp(i,j,pol) *)
Definition ijp2blp (i j pol : Z) : Z := ij2bl i j * 16 + (pol + 9).

(* aipy/pol.py:20-23  def blp2ijp(blp) *)
Definition blp2ijp (blp : Z) : Z * Z * Z :=
  let bl := blp / 16 in
  let pol := blp mod 16 - 9 in
  let '(i, j) := bl2ij bl in (i, j, pol).

(* Python range(a, b) *)
Definition zrange (a b : Z) : list Z :=
  map (fun k => a + Z.of_nat k) (seq 0 (Z.to_nat (b - a))).

(* aipy/phs.py:285-296  AntennaArray.bl_indices(auto, cross); n = len(self).
   phs.ij2bl is miriad.ij2bl (phs.py imports it). *)
Definition bl_indices (n : Z) (auto cross : bool) : list Z :=
  if auto then
    if cross then flat_map (fun i => map (fun j => ij2bl i j) (zrange i n)) (zrange 0 n)
    else map (fun i => ij2bl i i) (zrange 0 n)
  else
    if cross then flat_map (fun i => map (fun j => ij2bl i j) (zrange (i + 1) n)) (zrange 0 n)
    else [].
