(* What a least-square, maximum-entropy or annealing fit promises: bounds, residuals and their
   mean squares, the iteration it performs. *)
From Coq Require Import Reals.
From Verif Require Import Base CleanSpec.
Open Scope R_scope.

(* between the bounds; no upper bound: infinity *)
Definition within (lower : R) (upper : option R) (v : R) : Prop :=
  lower <= v /\ match upper with Some u => v <= u | None => True end.
Definition sensible (lower : R) (upper : option R) : Prop := match upper with Some u => lower <= u | None => True end.
(* the nearest value between the bounds *)
Definition bounded (lower : R) (upper : option R) (v : R) : R :=
  match upper with Some u => Rmin u (Rmax lower v) | None => Rmax lower v end.

Section Image.
Variables (d1 d2 : nat) (im ker : nat * nat -> R).
Definition sum2 (f : nat * nat -> R) : R := rsum (seq 0 d1) (fun a => rsum (seq 0 d2) (fun b => f (a, b))).
Definition mean (f : nat * nat -> R) : R := sum2 f / INR (d1 * d2).
(* the image less the model convolved with the kernel *)
Definition misfit (x : nat * nat -> R) (p : nat * nat) : R := im p - conv2 d1 d2 ker x p.
Definition misfit2 (x : nat * nat -> R) : R := mean (fun p => misfit x p * misfit x p).
Definition ker_size : R := sqrt (sum2 (fun p => ker p * ker p)).
(* lsq: misfit inside the area, weighted *)
Definition misfit_in (area : nat * nat -> Z) (x : nat * nat -> R) : R :=
  mean (fun p => (IZR (area p) * misfit x p) * (IZR (area p) * misfit x p)).
(* lsq: n steps from x0 *)
Fixpoint steps (area : nat * nat -> Z) (gain lower : R) (upper : option R) (x0 : nat * nat -> R) (n : nat) : nat * nat -> R :=
  match n with
  | O => x0
  | S n => let x := steps area gain lower upper x0 n in
           fun p => bounded lower upper (x p + gain * (IZR (area p) * misfit x p / (2 * ker_size)))
  end.

(* maxent: entropy - sum b ln (b/m) is maximised, with multiplier alpha for the constraint that the
   sum of squared misfits is nvar0. A state is (b, alpha) *)
Section Entropy.
Variables (m : nat * nat -> R) (nvar0 gain tol lower : R) (upper : option R).
Notation image := (nat * nat -> R).
Notation state := (image * R)%type.
Definition chi_slope (s : state) (p : nat * nat) : R := - (2 * ker_size * misfit (fst s) p).
Definition slope (s : state) (p : nat * nat) : R := - ln (fst s p / m p) - 1 - snd s * chi_slope s p.
Definition curvature (s : state) (p : nat * nat) : R := - / fst s p - 2 * snd s * (ker_size * ker_size).
Definition inner (s : state) (x y : image) : R := - sum2 (fun p => x p * y p / curvature s p).
(* every logarithm and division is defined *)
Definition regular (s : state) : Prop :=
  (forall a b, (a < d1)%nat -> (b < d2)%nat -> m (a, b) <> 0 /\ 0 < fst s (a, b) / m (a, b) /\ curvature s (a, b) <> 0) /\
  inner s (fun _ => 1) (fun _ => 1) <> 0.
Definition entropy_score (s : state) : R := inner s (slope s) (slope s) / inner s (fun _ => 1) (fun _ => 1).
Definition chi_excess (s : state) : R := sum2 (fun p => misfit (fst s) p * misfit (fst s) p) - nvar0.
Definition alpha_step (s : state) : R :=
  (chi_excess s + inner s (chi_slope s) (slope s)) / inner s (chi_slope s) (chi_slope s).
(* Newton's step for b at the new multiplier, scaled by gain *)
Definition entropy_step (s : state) : state :=
  (fun p => bounded lower upper (fst s p - gain * ((slope s p - alpha_step s * chi_slope s p) / curvature s p)),
   snd s + gain * alpha_step s).
(* the iteration goes on from s, to a state made of numbers *)
Definition goes_on (s : state) : Prop := regular s /\ tol <= entropy_score s <= 10000000000 /\ 0 < entropy_score s.
Definition can_step (s : state) : Prop := inner s (chi_slope s) (chi_slope s) <> 0.
Fixpoint entropy_states (s : state) (n : nat) : state := match n with O => s | S n => entropy_step (entropy_states s n) end.
End Entropy.
End Image.
