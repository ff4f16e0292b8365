(* What add2array and gridding promise, without reference to their loops. *)
From Coq Require Import Reals.
From Verif Require Import Base CleanSpec.
Open Scope Z_scope.

(* numpy's reading of an index vector: -d <= v < d in each axis, negative from the end *)
Inductive addresses : list Z -> list Z -> list Z -> Prop :=     (* shape, index, cell *)
| ad_nil : addresses [] [] []
| ad_cons d shape v index k cell : 0 <= k < d -> (v = k \/ v = k - d) -> addresses shape index cell ->
    addresses (d :: shape) (v :: index) (k :: cell).
Definition valid_index (shape index : list Z) : Prop := exists cell, addresses shape index cell.
(* the data addressed to a cell, in order *)
Inductive addressed (shape cell : list Z) {T} : list (list Z * T) -> list T -> Prop :=
| adr_nil : addressed shape cell [] []
| adr_hit i x rows l : addresses shape i cell -> addressed shape cell rows l -> addressed shape cell ((i, x) :: rows) (x :: l)
| adr_miss i x rows l : ~ addresses shape i cell -> addressed shape cell rows l -> addressed shape cell ((i, x) :: rows) l.

Open Scope R_scope.
(* the Gaussian the samples are spread with; h is half the footprint *)
Definition gauss1 (x : R) : R := 0.79788456080286541 * exp (- 2 * (x * x)).
Definition gauss2 (x y : R) : R := 0.63661977236758149 * exp (- 2 * (x * x + y * y)).
(* the integers from floor (f - h) to ceil (f + h), as a predicate and as a list *)
Definition in_window (f : R) (h : Z) (j : Z) : Prop := f - IZR h - 1 < IZR j /\ IZR j < f + IZR h + 1.
Definition is_window (f : R) (h : Z) (l : list Z) : Prop := NoDup l /\ forall j, In j l <-> in_window f h j.
(* weight a sample at f (window w) gives to cell a of a ring of n cells *)
Definition foot1 (n : Z) (w : list Z) (f : R) (a : Z) : R := rsum w (fun j => if (j mod n =? a)%Z then gauss1 (f - IZR j) else 0).
Definition foot2 (n : Z) (w1 w2 : list Z) (f1 f2 : R) (a b : Z) : R :=
  rsum w1 (fun j1 => rsum w2 (fun j2 => if ((j1 mod n =? a) && (j2 mod n =? b))%Z then gauss2 (f1 - IZR j1) (f2 - IZR j2) else 0)).
Definition total2 (w1 w2 : list Z) (f1 f2 : R) : R := rsum w1 (fun j1 => rsum w2 (fun j2 => gauss2 (f1 - IZR j1) (f2 - IZR j2))).
(* the indices 0..n-1 *)
Definition ring (n : Z) : list Z := map Z.of_nat (seq 0 (Z.to_nat n)).
(* sums of complex numbers (pairs of reals) *)
Definition csum {A} (l : list A) (f : A -> R * R) : R * R := (rsum l (fun a => fst (f a)), rsum l (fun a => snd (f a))).
Definition cconj (z : R * R) : R * R := (fst z, - snd z).
