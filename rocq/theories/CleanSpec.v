(* What CLEAN promises, without reference to the loop: circular convolution, the root mean
   square of the residual. *)
From Coq Require Import Reals.
From Verif Require Import Base.
Open Scope R_scope.

Fixpoint rsum {A} (l : list A) (f : A -> R) : R := match l with [] => 0 | x :: r => f x + rsum r f end.

(* circular convolution *)
Definition conv1 (dim : nat) (k m : nat -> R) (c : nat) : R :=
  rsum (seq 0 dim) (fun a => k ((c + dim - a) mod dim)%nat * m a).
Definition conv2 (d1 d2 : nat) (k m : nat * nat -> R) (c : nat * nat) : R :=
  rsum (seq 0 d1) (fun a => rsum (seq 0 d2) (fun b =>
    k ((fst c + d1 - a) mod d1, (snd c + d2 - b) mod d2)%nat * m (a, b))).
(* complex: real and imaginary parts *)
Definition re {A} (f : A -> R * R) (x : A) : R := fst (f x).
Definition im {A} (f : A -> R * R) (x : A) : R := snd (f x).
Definition cconv1 dim k m c : R * R :=
  (conv1 dim (re k) (re m) c - conv1 dim (im k) (im m) c, conv1 dim (re k) (im m) c + conv1 dim (im k) (re m) c).
Definition cconv2 d1 d2 k m c : R * R :=
  (conv2 d1 d2 (re k) (re m) c - conv2 d1 d2 (im k) (im m) c, conv2 d1 d2 (re k) (im m) c + conv2 d1 d2 (im k) (re m) c).

(* root mean square of an array *)
Definition rms1 (dim : nat) (r : nat -> R) : R := sqrt (rsum (seq 0 dim) (fun c => r c * r c) / INR dim).
Definition rms2 (d1 d2 : nat) (r : nat * nat -> R) : R :=
  sqrt (rsum (seq 0 d1) (fun a => rsum (seq 0 d2) (fun b => r (a, b) * r (a, b))) / INR (d1 * d2)).
Definition crms1 dim (r : nat -> R * R) : R := sqrt (rsum (seq 0 dim) (fun c => re r c * re r c + im r c * im r c) / INR dim).
Definition crms2 d1 d2 (r : nat * nat -> R * R) : R :=
  sqrt (rsum (seq 0 d1) (fun a => rsum (seq 0 d2) (fun b => re r (a, b) * re r (a, b) + im r (a, b) * im r (a, b))) / INR (d1 * d2)).
Definition inside1 (dim : nat) (c : nat) : Prop := (c < dim)%nat.
Definition inside2 (d1 d2 : nat) (c : nat * nat) : Prop := (fst c < d1 /\ snd c < d2)%nat.
(* the residual r after a further component x at cell a *)
Definition taken1 (dim : nat) (k r : nat -> R) (a : nat) (x : R) (c : nat) : R := r c - k ((c + dim - a) mod dim)%nat * x.
Definition taken2 (d1 d2 : nat) (k r : nat * nat -> R) (a : nat * nat) (x : R) (c : nat * nat) : R :=
  r c - k ((fst c + d1 - fst a) mod d1, (snd c + d2 - snd a) mod d2)%nat * x.
Definition ctaken1 (dim : nat) (k r : nat -> R * R) (a : nat) (x : R * R) (c : nat) : R * R :=
  let k' := k ((c + dim - a) mod dim)%nat in
  (re r c - (fst k' * fst x - snd k' * snd x), im r c - (fst k' * snd x + snd k' * fst x)).
Definition ctaken2 (d1 d2 : nat) (k r : nat * nat -> R * R) (a : nat * nat) (x : R * R) (c : nat * nat) : R * R :=
  let k' := k ((fst c + d1 - fst a) mod d1, (snd c + d2 - snd a) mod d2)%nat in
  (re r c - (fst k' * fst x - snd k' * snd x), im r c - (fst k' * snd x + snd k' * fst x)).
