(* Facet centres: aipy/map.py:23-67. Simplifications: coordinates are exact reals; integers do
   not overflow; the random numbers of random.shuffle are a parameter; the conversion of the
   points to ra,dec (ncrd=2) is left to the caller. *)
From Coq Require Import Reals.
From Verif Require Import Base CleanModel GridModel.
Open Scope Z_scope.

(* map.py:30-38, one term of the sum: (N & 2**bit) * 2**(nbits-2*bit-1). With a negative
   exponent the factor is a python float, the product is exact, and adding it in place to the
   integer array is an error in numpy 1.10 and later (casting rule same_kind); before, it was
   truncated to an integer, which is exact here. *)
Definition rev_term (nbits n bit : Z) : Z :=
  let e := nbits - 2 * bit - 1 in
  let a := Z.land n (2 ^ bit) in
  if 0 <=? e then a * 2 ^ e else a / 2 ^ (- e).
Fixpoint bit_reverse_loop (same_kind : bool) (nbits : Z) (bits : list Z) (ns ans : list Z) : res (list Z) :=
  match bits with
  | [] => Ok ans
  | bit :: bits =>
      if same_kind && (nbits - 2 * bit - 1 <? 0) then Err
      else bit_reverse_loop same_kind nbits bits ns (map (fun '(n, a) => a + rev_term nbits n bit) (combine ns ans))
  end.
Definition range (n : Z) : list Z := map Z.of_nat (seq 0 (Z.to_nat n)).
Definition bit_reverse (same_kind : bool) (ns : list Z) (nbits : Z) : res (list Z) :=
  bit_reverse_loop same_kind nbits (range nbits) ns (map (fun _ => 0) ns).
(* map.py:40-45; log2 of a number below 1 is not a number or infinite: int() raises *)
Definition bit_reverse_order (same_kind : bool) (n : Z) : res (list Z) :=
  if n <? 1 then Err
  else let nbits := Z.log2 n + 1 in
       bind (bit_reverse same_kind (range (2 ^ nbits)) nbits) (fun ind => Ok (filter (fun i => i <? n) ind)).

(* python's random.shuffle: for i in reversed(range(1, len(x))): j = randbelow(i+1); swap *)
Definition get (l : list Z) (i : nat) : Z := nth i l 0.
Fixpoint put (l : list Z) (i : nat) (v : Z) : list Z :=
  match l, i with [], _ => [] | _ :: r, O => v :: r | x :: r, S i => x :: put r i v end.
Definition swap (l : list Z) (i j : nat) : list Z := put (put l i (get l j)) j (get l i).
Fixpoint shuffle_from (rnd : nat -> nat) (i : nat) (l : list Z) : list Z :=
  match i with O => l | S k => shuffle_from rnd k (swap l i (rnd i)) end.
Definition shuffle (rnd : nat -> nat) (l : list Z) : list Z := shuffle_from rnd (length l - 1) l.
(* map.py:47-53: rnd c i is the choice made for position i of chunk c *)
Fixpoint local_shuffle_from (rnd : nat -> nat -> nat) (width c n : nat) (l : list Z) : list Z :=
  match n with
  | O => l
  | S n => let lo := (width * c)%nat in let hi := (width * (c + 1))%nat in
           let chunk := skipn lo (firstn hi l) in
           local_shuffle_from rnd width (S c) n (firstn lo l ++ shuffle (rnd c) chunk ++ skipn hi l)
  end.
Definition local_shuffle (rnd : nat -> nat -> nat) (width : nat) (l : list Z) : list Z :=
  local_shuffle_from rnd width 0 ((length l + width - 1) / width) l.

(* numpy.arange(start, stop, step): ceil((stop-start)/step) values *)
Definition arangeR (start stop step : R) : list R :=
  map (fun k => (start + INR k * step)%R) (seq 0 (Z.to_nat (ceilR ((stop - start) / step)%R))).
(* map.py:20-28; arrays of different lengths do not multiply *)
Definition pack_sphere (n : Z) : res (list (R * R * R)) :=
  let dz := (2 / IZR n)%R in
  let z := arangeR (-1 + dz / 2) 1 dz in
  let r := map (fun z => sqrt (1 - z * z))%R z in
  let dL := (PI * (3 - sqrt 5))%R in
  let long := arangeR 0 (dL * IZR n) dL in
  if Nat.eqb (length r) (length long)
  then Ok (map (fun '(z, (r, l)) => (r * cos l, r * sin l, z)%R) (combine z (combine r long))) else Err.
(* a.take(ind), a.take(ind, axis=1): an index out of range is IndexError *)
Fixpoint take {A} (l : list A) (ind : list Z) : res (list A) :=
  match ind with
  | [] => Ok []
  | i :: ind => if i <? 0 then Err else
      match nth_error l (Z.to_nat i) with Some x => bind (take l ind) (fun r => Ok (x :: r)) | None => Err end
  end.
(* map.py:55-67 with ncrd=3 *)
Definition facet_centers (same_kind : bool) (rnd : nat -> nat -> nat) (n : Z) : res (list (R * R * R)) :=
  let ind1 := local_shuffle rnd 2 (range n) in
  bind (bit_reverse_order same_kind n) (fun ind2 =>
  bind (take ind1 ind2) (fun ind =>
  bind (pack_sphere n) (fun pnts => take pnts ind))).
