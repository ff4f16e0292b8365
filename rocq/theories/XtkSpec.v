(* SPEC: averages over the records of a pair of antennas, and the separation into profile and gains. *)
From Coq Require Import Reals.
From Verif Require Import Base.
Open Scope R_scope.

Definition total (l : list R) : R := fold_right Rplus 0 l.
Definition cnum := (R * R)%type.
Definition ctotal (l : list cnum) : cnum := (total (map fst l), total (map snd l)).
(* m is the mean of l, or zero when l is empty *)
Definition is_mean (l : list cnum) (m : cnum) : Prop :=
  (l = [] -> m = (0, 0)) /\ INR (length l) * fst m = fst (ctotal l) /\ INR (length l) * snd m = snd (ctotal l).

(* a record: antennas, polarisation, data, flags *)
Definition record := (Z * Z * Z * list cnum * list bool)%type.
Definition of_antennas (i j p : Z) (r : record) : Prop :=
  let '(a, b, q, _, _) := r in q = p /\ ((a = i /\ b = j) \/ (a = j /\ b = i))%Z.
Definition of_antennas_b (i j p : Z) (r : record) : bool :=
  let '(a, b, q, _, _) := r in ((q =? p) && (((a =? i) && (b =? j)) || ((a =? j) && (b =? i))))%Z.
(* the values of a channel that are not flagged, of the records of two antennas and a polarisation *)
Definition samples (i j p : Z) (c : nat) (rs : list record) : list cnum :=
  flat_map (fun r : record => if of_antennas_b i j p r then
    let '(_, _, _, d, f) := r in if nth c f false then [] else [nth c d (0, 0)] else []) rs.
Definition proper (n : nat) (r : record) : Prop :=
  let '(a, b, p, d, f) := r in (0 <= a <= 2046)%Z /\ (0 <= b <= 2046)%Z /\ (-9 <= p <= 6)%Z /\ length d = n /\ length f = n.

(* the amplitudes that are not zero of the channels from lo to before hi, and their mean *)
Definition modulus (z : cnum) : R := sqrt (fst z * fst z + snd z * snd z).
Definition lit_channel (z : cnum) : bool := if Req_EM_T (modulus z) 0 then false else true.
Definition amplitudes (lo hi : nat) (d : list cnum) : list R := map modulus (filter lit_channel (firstn (hi - lo) (skipn lo d))).
Definition mean_amplitude (lo hi : nat) (d : list cnum) : R := total (amplitudes lo hi d) / INR (length (amplitudes lo hi d)).
Definition times (g : R) (z : cnum) : cnum := (g * fst z, g * snd z).

(* a measurement: a spectrum for each key *)
Definition measurement := list (Z * list cnum).
Definition of_key (b : Z) (m : measurement) : list (list cnum) := flat_map (fun e => if Z.eqb (fst e) b then [snd e] else []) m.
(* spectra of n channels, one for a key, whose mean amplitude is defined *)
Definition measured (lo hi n : nat) (m : measurement) : Prop :=
  NoDup (map fst m) /\ forall b d, In (b, d) m -> length d = n /\ amplitudes lo hi d <> [].
