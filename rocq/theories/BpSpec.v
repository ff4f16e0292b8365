From Coq Require Import String Reals.
From Verif Require Import Base HdrModel.
Open Scope Z_scope.

(* the value of a polynomial, coefficients from the highest power down *)
Fixpoint value (p : list R) (x : R) : R :=
  match p with [] => 0%R | c :: r => (c * x ^ List.length r + value r x)%R end.
(* the bandpass g of antenna i and channel c, of n antennas and m channels, is what the item holds: the
   real parts of n*m complex numbers, antenna by antenna *)
Definition holds {G} (number : Z -> G) (item : pyval) (n m : nat) (g : nat -> nat -> G) : Prop :=
  exists l, item = Seq l /\ List.length l = (n * m)%nat /\
    forall i c, (i < n)%nat -> (c < m)%nat -> exists re im, nth_error l (i * m + c) = Some (ECplx re im) /\ g i c = number re.
