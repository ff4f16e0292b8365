(* What facet_centers promises. *)
From Coq Require Import Reals.
From Verif Require Import Base.
Open Scope R_scope.
(* the k-th of n points: evenly spaced in z, turned by the golden angle from one to the next *)
Definition facet_z (n k : Z) : R := -1 + (2 * IZR k + 1) / IZR n.
Definition facet (n k : Z) : R * R * R :=
  let z := facet_z n k in let a := IZR k * (PI * (3 - sqrt 5)) in
  (sqrt (1 - z * z) * cos a, sqrt (1 - z * z) * sin a, z).
Definition unit3 (p : R * R * R) : Prop := let '(x, y, z) := p in x * x + y * y + z * z = 1.
Definition below (n : Z) : list Z := map Z.of_nat (seq 0 (Z.to_nat n)).
