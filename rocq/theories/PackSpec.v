(* SPEC: the disk format. A number occupies w bytes, most significant first. *)
From Verif Require Import Base.

(* Byte number k (0 = first on disk) of v stored in w bytes. *)
Definition be_bytes (w : nat) (v : Z) : list Z :=
  map (fun k => (v / 256 ^ Z.of_nat (w - 1 - k)) mod 256) (seq 0 w).

Definition fits_signed (w : nat) (v : Z) : Prop :=
  - 2 ^ (8 * Z.of_nat w - 1) <= v < 2 ^ (8 * Z.of_nat w - 1).

(* Reduction of an int to the 16-bit number it is congruent to. *)
Definition wrap16 (v : Z) : Z := (v + 32768) mod 65536 - 32768.
