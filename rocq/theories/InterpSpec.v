(* What interpolation promises. *)
From Coq Require Import Reals.
From Verif Require Import Base CleanSpec InterpModel.
Open Scope R_scope.

(* polyfit: samples that lie on a parabola are fitted by it (three or more of them, at different places) *)
Definition fits_exactly (polyfit : list R -> list R -> nat -> list R) : Prop :=
  forall xs q, length q = 3%nat -> NoDup xs -> (3 <= length xs)%nat ->
  forall x, polyval (polyfit xs (map (polyval q) xs) 2%nat) x = polyval q x.
(* the filter seen from output m: the weight it gives to sample n of e, the samples being factor apart *)
Definition weight (fir : list R) (factor m n : nat) : R :=
  if ((m <=? factor * n) && (factor * n <? m + length fir))%nat then nth (length fir - 1 - (factor * n - m)) fir 0 else 0.
Definition total_weight (fir : list R) (factor : nat) (e : list R) (m : nat) : R := rsum (seq 0 (length e)) (weight fir factor m).
Definition weighted_mean (fir : list R) (factor : nat) (e : list R) (m : nat) : R :=
  rsum (seq 0 (length e)) (fun n => weight fir factor m n * nth n e 0) / total_weight fir factor e m.
(* the samples with order more on either side: those before and after are on curves p and q *)
Definition extended (ys : list R) (order : nat) (e : list R) : Prop :=
  exists before after, length before = order /\ length after = order /\ e = before ++ ys ++ after.
Definition keeps_length (filter : list R -> list R) : Prop := forall xs, length (filter xs) = length xs.
