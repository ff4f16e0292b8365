(* SPEC: which samples scripts/xrfi_simple.py is to flag. *)
From Coq Require Import Reals Permutation Sorted.
From Verif Require Import Base GaussSpec.
Open Scope R_scope.

Notation cnum := (R * R)%type (only parsing).
Notation record := (R * Z * Z * Z * list (R * R) * list bool)%type (only parsing).     (* time, antennas, polarisation, data, flags *)
Definition time (r : record) : R := let '(t, _, _, _, _, _) := r in t.
Definition data (r : record) : list cnum := let '(_, _, _, _, d, _) := r in d.
Definition flags (r : record) : list bool := let '(_, _, _, _, _, f) := r in f.
Definition value (r : record) (c : nat) : cnum := nth c (data r) (0, 0).
Definition sound (n : nat) (r : record) : Prop :=
  let '(_, i, j, _, d, f) := r in (0 <= i <= 2046)%Z /\ (0 <= j <= 2046)%Z /\ length d = n /\ length f = n.
(* the same two antennas, in either order, and the same polarisation *)
Definition like (r s : record) : bool :=
  let '(_, i, j, p, _, _) := r in let '(_, a, b, q, _, _) := s in ((p =? q) && (((i =? a) && (j =? b)) || ((i =? b) && (j =? a))))%Z%bool.
Definition distinct (rs : list record) : Prop := ForallOrdPairs (fun r s => like r s = true -> time r <> time s) rs.
(* the records like r, by time *)
Definition timeline (rs : list record) (r : record) (l : list record) : Prop :=
  Permutation l (filter (like r) rs) /\ StronglySorted (fun a b => time a < time b) l.

Definition square (z : cnum) : R := fst z * fst z + snd z * snd z.
Definition size (z : cnum) : R := sqrt (square z).
(* how far b is from the middle of a and c, squared *)
Definition bend (a b c : cnum) : R := square (fst b - (fst a + fst c) / 2, snd b - (snd a + snd c) / 2).
(* x is more than lim deviations, the median of the squares being h *)
Definition far (lim h x : R) : Prop := (h = 0 /\ x <> 0) \/ (h > 0 /\ lim * lim * h < x).
Definition freq_bend (r : record) (c : nat) : R := bend (value r (c - 1)) (value r c) (value r (c + 1)).
Definition in_freq (lim : R) (n : nat) (r : record) (c : nat) : Prop :=
  c = 0%nat \/ c = (n - 1)%nat \/ exists h, is_median (map (freq_bend r) (seq 1 (n - 2))) h /\ far lim h (freq_bend r c).
Definition time_bend (l : list record) (c k : nat) : R :=
  let v k := nth k (map (fun r => value r c) l) (0, 0) in bend (v (k - 1)%nat) (v k) (v (k + 1)%nat).
Definition in_time (lim : R) (l : list record) (k c : nat) : Prop :=
  k = 0%nat \/ k = (length l - 1)%nat \/ exists h, is_median (map (time_bend l c) (seq 1 (length l - 2))) h /\ far lim h (time_bend l c k).
Definition in_size (lim : R) (l : list record) (r : record) (c : nat) : Prop :=
  let sizes := map size (flat_map data l) in
  exists h s, is_median sizes h /\ is_median (map (fun x => (x - h) * (x - h)) sizes) s /\ h + lim * sqrt s < size (value r c).
Definition statistical (df dt : option R) (nsig : R) (n : nat) (l : list record) (k : nat) (r : record) (c : nat) : Prop :=
  match df, dt with
  | None, None => in_size nsig l r c
  | _, _ => (exists lim, df = Some lim /\ in_freq lim n r c) \/ (exists lim, dt = Some lim /\ in_time lim l k c)
  end.
(* channel numbers below zero count from the end *)
Definition listed (chans : list Z) (n c : nat) : Prop := In (Z.of_nat c) chans \/ In (Z.of_nat c - Z.of_nat n)%Z chans.
(* channel c of record r of rs is flagged *)
Definition individual (chans : list Z) (df dt : option R) (nsig : R) (n : nat) (rs : list record) (r : record) (c : nat) : Prop :=
  nth c (flags r) false = true \/ listed chans n c \/ exists l k, timeline rs r l /\ nth_error l k = Some r /\ statistical df dt nsig n l k r c.
(* r is written as r': P says which channels are flagged *)
Definition becomes (n : nat) (P : nat -> Prop) (r r' : record) : Prop :=
  (let '(t, i, j, p, _, _) := r in let '(t', i', j', p', _, _) := r' in (t, i, j, p) = (t', i', j', p')) /\ length (data r') = n /\ length (flags r') = n /\
  forall c, (c < n)%nat -> (nth c (flags r') false = true <-> P c) /\ value r' c = if nth c (flags r') false then (0, 0) else value r c.
