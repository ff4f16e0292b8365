(* SPEC: what scripts/filter_src.py is to leave in the data. *)
From Coq Require Import Reals.
From Verif Require Import Base.
Open Scope R_scope.
Local Notation length := List.length.

Notation cnum := (R * R)%type (only parsing).
Notation record := (R * Z * Z * Z * list (R * R) * list bool)%type (only parsing).     (* time, antennas, polarisation, data, flags *)
Definition data (r : record) : list cnum := let '(_, _, _, _, d, _) := r in d.
Definition flags (r : record) : list bool := let '(_, _, _, _, _, f) := r in f.
Definition auto (r : record) : Prop := let '(_, i, j, _, _, _) := r in i = j.
Definition polarisation (r : record) : Z := let '(_, _, _, p, _, _) := r in p.
Definition value (r : record) (c : nat) : cnum := nth c (data r) (0, 0).
Definition sized (n : nat) (r : record) : Prop := length (data r) = n /\ length (flags r) = n.
(* all but the data *)
Definition same_place (r s : record) : Prop :=
  let '(t, i, j, p, _, f) := r in let '(t', i', j', p', _, f') := s in (t, i, j, p, f) = (t', i', j', p', f').

Definition plus (a b : cnum) : cnum := (fst a + fst b, snd a + snd b).
Definition minus (a b : cnum) : cnum := (fst a - fst b, snd a - snd b).
Definition times (a b : cnum) : cnum := (fst a * fst b - snd a * snd b, fst a * snd b + snd a * fst b).
Definition sum (l : list cnum) : cnum := fold_right plus (0, 0) l.
(* a turn by q of a circle *)
Definition circle (q : R) : cnum := (cos (2 * PI * q), sin (2 * PI * q)).
(* how much of delay number k is in a spectrum; numbers of half of the length and more are delays below zero *)
Definition component (s : list cnum) (k : nat) : cnum :=
  let n := length s in
  times (/ INR n, 0) (sum (map (fun x => times (nth x s (0, 0)) (circle (INR x * INR k / INR n))) (seq 0 n))).
(* a spectrum with the phases of the source *)
Definition toward (ph s : list cnum) : list cnum := map (fun p => times (fst p) (snd p)) (combine s ph).
(* the phases for a record: those of the source, if it is up *)
Definition phases (src : option (R -> Z -> Z -> Z -> option (list cnum))) (n : nat) (r : record) : option (list cnum) :=
  let '(t, i, j, p, _, _) := r in match src with None => Some (repeat (1, 0) n) | Some g => g t p i j end.
(* the delays from -dw up to, not including, dw *)
Definition near (n : nat) (dw : Z) (k : nat) : Prop := (Z.of_nat k < dw \/ Z.of_nat n - dw <= Z.of_nat k)%Z.
(* e is the part of the spectrum s, given as x delay by delay, which has the delays in P *)
Definition part (n : nat) (P : nat -> Prop) (x : nat -> cnum) (ph e : list cnum) : Prop :=
  length e = n /\ forall k, (k < n)%nat -> (P k -> component (toward ph e) k = x k) /\ (~ P k -> component (toward ph e) k = (0, 0)).
(* the record r' from r: with --extract the part e alone, else r without it where it is not flagged *)
Definition written (extract : bool) (n : nat) (e : list cnum) (r r' : record) : Prop :=
  same_place r r' /\ length (data r') = n /\
  forall c, (c < n)%nat -> value r' c = if extract then nth c e (0, 0) else if nth c (flags r) false then value r c else minus (value r c) (nth c e (0, 0)).

(* a spectrum with zeros where it is flagged, what this makes of a spectrum of ones, and the root of the part that is not flagged *)
Definition unflagged (f : list bool) (s : list cnum) : list cnum := map (fun p : bool * cnum => if fst p then (0, 0) else snd p) (combine f s).
Definition response (f : list bool) : list cnum := map (fun b : bool => if b then (0, 0) else (1, 0)) f.
Definition share (f : list bool) : R := sqrt (INR (length (filter negb f)) / INR (length f)).
(* the delays x found in the spectrum s with flags f: nothing in nothing, else the response is cleaned away and the residual added;
   clean ker image m r: cleaning gives the model m and the residual r *)
Definition delays_found (clean : (nat -> cnum) -> (nat -> cnum) -> (nat -> cnum) -> (nat -> cnum) -> Prop) (n : nat) (f : list bool) (s : list cnum) (x : nat -> cnum) : Prop :=
  (forall k, (k < n)%nat -> component (unflagged f s) k = (0, 0) /\ x k = (0, 0)) \/
  exists ker image m r, (forall k, (k < n)%nat -> ker k = component (response f) k /\ image k = component (unflagged f s) k) /\ clean ker image m r /\
    share f <> 0 /\ forall k, (k < n)%nat -> x k = plus (m k) (times (/ share f, 0) (r k)).
(* what becomes of a record: P, the delays that are taken *)
Definition filtered (clean : (nat -> cnum) -> (nat -> cnum) -> (nat -> cnum) -> (nat -> cnum) -> Prop) src (extract : bool) (n : nat) (P : nat -> Prop) (r r' : record) : Prop :=
  (auto r -> r' = r) /\
  (~ auto r -> match phases src n r with
               | None => written extract n (repeat (0, 0) n) r r'
               | Some ph => exists x e, delays_found clean n (flags r) (toward ph (data r)) x /\ part n P x ph e /\ written extract n e r r'
               end).
(* a record that can be filtered *)
Definition fit (src : option (R -> Z -> Z -> Z -> option (list cnum))) (pols : list Z) (n : nat) (r : record) : Prop :=
  sized n r /\ (~ auto r -> In (polarisation r) pols) /\ forall ph, phases src n r = Some ph -> length ph = n /\ forall z, In z ph -> z <> (0, 0).

(* the time that has number u when p of N times are mirrored at both ends *)
Definition mirror (p N u : nat) : nat := if Nat.ltb u p then (p - 1 - u)%nat else if Nat.ltb u (p + N) then (u - p)%nat else (N - 1 - (u - (p + N)))%nat.
(* how much of rate number m and delay number k is in L spectra *)
Definition component2 (L : nat) (s : nat -> list cnum) (m k : nat) : cnum := component (map (fun u => component (s u) k) (seq 0 L)) m.
(* the rates above -drw and below drw *)
Definition slow (L : nat) (drw : Z) (m : nat) : Prop := (Z.of_nat m < drw \/ Z.of_nat L - drw < Z.of_nat m)%Z.
