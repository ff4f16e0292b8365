(* SPEC: gains, phase offsets and responses of polarised baselines. *)
From Coq Require Import Reals String.
From Verif Require Import Base CleanModel ImgModel GeoModel ArrModel PolModel. (* for types *)
Open Scope R_scope.
Local Notation length := List.length.

(* polynomial with the highest power first *)
Fixpoint poly (c : list R) (x : R) : R := match c with [] => 0 | a :: r => a * x ^ (length r) + poly r x end.
(* phase (in turns) and gain of feed p of an antenna at frequency f, from its parameters *)
Definition phase (a : pant) (p : string) (f : R) : R :=
  match plook (pa_phspoly a) p with Val c => poly c f | Exc _ => 0 end.
Definition gain (a : pant) (p : string) (f : R) : C :=
  match plook (pa_bpr a) p, plook (pa_bpi a) p, plook (pa_amp a) p with
  | Val re, Val im, Val g => (g * poly re f, g * poly im f)
  | _, _, _ => (0, 0)
  end.
Definition conjugate (z : C) : C := (fst z, - snd z).
Definition times (z w : C) : C := (fst z * fst w - snd z * snd w, fst z * snd w + snd z * fst w).

(* an antenna with feeds x and y that observes at the frequencies fs *)
Definition two_feeds (fs : list R) (a : pant) : Prop :=
  pa_afreqs a = fs /\ (forall p, In p ["x"; "y"]%string ->
    (exists c, plook (pa_phspoly a) p = Val c) /\ (exists c, plook (pa_bpr a) p = Val c) /\
    (exists c, plook (pa_bpi a) p = Val c) /\ (exists g, plook (pa_amp a) p = Val g)) /\
  (forall p x, In (p, x) (pa_bpr a) -> p = "x" \/ p = "y")%string.
(* what it derives from its parameters is up to date: updating it changes nothing *)
Definition current (a : pant) : Prop := pupdate a = Val a.
Definition linear (p q pol : string) : Prop :=
  In (p, q, pol) [("x", "x", "xx"); ("x", "y", "xy"); ("y", "x", "yx"); ("y", "y", "yy")]%string.

(* the sphere: right ascension grows towards the east; a source at hour angle ha when the sidereal time is 0 *)
Definition direction (ra dec : R) : vec := (cos dec * cos ra, cos dec * sin ra, sin dec).
Definition east (ra : R) : vec := (- sin ra, cos ra, 0).
Definition north (ra dec : R) : vec := (- sin dec * cos ra, - sin dec * sin ra, cos dec).
Definition inner (a b : vec) : R := let '(x, y, z) := a in let '(u, v, w) := b in x * u + y * v + z * w.
