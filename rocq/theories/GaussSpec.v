(* What fitting and drawing a Gaussian promise. *)
From Coq Require Import Reals Permutation Sorted.
From Verif Require Import Base CleanSpec.
Open Scope R_scope.

(* i is the first place below n where f is largest *)
Definition first_largest (f : nat -> R) (n i : nat) : Prop :=
  (i < n)%nat /\ (forall j, (j < n)%nat -> f j <= f i) /\ (forall j, (j < i)%nat -> f j < f i).
(* h is the median of l *)
Definition is_median (l : list R) (h : R) : Prop :=
  exists s, Permutation l s /\ StronglySorted Rle s /\ h = (nth ((length l - 1) / 2) s 0 + nth (length l / 2) s 0) / 2.
Definition is_maximum (l : list R) (x : R) : Prop := In x l /\ forall y, In y l -> y <= x.
(* the pixels of an image *)
Definition pixels (n m : nat) (d : nat -> nat -> R) : list R := map (fun p => d (fst p) (snd p)) (list_prod (seq 0 n) (seq 0 m)).
(* a Gaussian of the given amplitude about row y0, column x0, with widths along the rows' and the
   columns' numbers *)
Definition bell (a x0 y0 wrow wcol : R) (r c : nat) : R :=
  a * exp (- (((INR r - y0) / wrow) ^ 2 + ((INR c - x0) / wcol) ^ 2) / 2).
(* the mean distance from i0, weighted by the brightness *)
Definition mean_distance (f : nat -> R) (n : nat) (i0 : R) : R :=
  rsum (seq 0 n) (fun i => Rabs (INR i - i0) * Rabs (f i)) / rsum (seq 0 n) (fun i => Rabs (f i)).
