(* C's conversions between double and float, on bit patterns, as the implicit conversions of
   aipy/_miriad/miriad_wrap.cpp:541-547 (hwrite 'c') and 606-610 (hread 'c') make them: IEEE 754, round to
   nearest even, too large a number becomes an infinity; a nan keeps its sign and the top of its
   payload and becomes quiet. *)
From Flocq Require Import Core IEEE754.BinarySingleNaN IEEE754.Binary IEEE754.Bits.
From Verif Require Import Base.
Open Scope Z_scope.

Definition quiet (top p : Z) : Z := if p <? top then p + top else p.

Definition cv32 (x : binary64) : Z :=
  match x with
  | B754_zero _ _ s => bits_of_b32 (B754_zero 24 128 s)
  | B754_infinity _ _ s => bits_of_b32 (B754_infinity 24 128 s)
  | B754_nan _ _ s pl _ => join_bits 23 8 s (quiet (2 ^ 22) (Zpos pl / 2 ^ 29)) 255
  | B754_finite _ _ s m e _ => bits_of_b32 (binary_normalize 24 128 eq_refl eq_refl mode_NE (cond_Zopp s (Zpos m)) e s)
  end.
Definition cv64 (x : binary32) : Z :=
  match x with
  | B754_zero _ _ s => bits_of_b64 (B754_zero 53 1024 s)
  | B754_infinity _ _ s => bits_of_b64 (B754_infinity 53 1024 s)
  | B754_nan _ _ s pl _ => join_bits 52 11 s (quiet (2 ^ 51) (Zpos pl * 2 ^ 29)) 2047
  | B754_finite _ _ s m e _ => bits_of_b64 (binary_normalize 53 1024 eq_refl eq_refl mode_NE (cond_Zopp s (Zpos m)) e s)
  end.
Definition narrow64 (x : Z) : Z := cv32 (b64_of_bits x).
Definition widen32 (x : Z) : Z := cv64 (b32_of_bits x).
