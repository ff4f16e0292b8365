(* What a window of L samples promises. *)
From Coq Require Import Reals.
From Verif Require Import Base.
Open Scope R_scope.
Local Notation length := List.length.
Definition symmetric (w : list R) : Prop := forall k, (k < length w)%nat -> nth (length w - 1 - k) w 0 = nth k w 0.
Definition bounded01 (w : list R) : Prop := Forall (fun x => 0 <= x <= 1) w.
(* samples do not fall before the middle *)
Definition rising (w : list R) : Prop := forall k, (2 * (k + 1) <= length w - 1)%nat -> nth k w 0 <= nth (k + 1) w 0.
(* the middle sample, when there is one, is 1 *)
Definition peak (w : list R) : Prop := forall k, (length w = 2 * k + 1)%nat -> nth k w 0 = 1.
Definition good_window (L : Z) (w : list R) : Prop := Z.of_nat (length w) = L /\ symmetric w /\ bounded01 w /\ rising w /\ peak w.
(* the contract of the modified Bessel function of order zero *)
Record bessel0 (i0 : R -> R) : Prop := { b0_pos : 0 < i0 0; b0_incr : forall x y, 0 <= x <= y -> i0 x <= i0 y }.
