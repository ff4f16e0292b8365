(* What maps in files promise. *)
From Coq Require Import Reals Ascii String.
From Verif Require Import Base HpxModel HpxSpec MapfModel.
Local Open Scope Z_scope.

(* the side is a power of two and there is a value for every pixel *)
Definition full (n : Z) (h : hpm) : Prop := (exists k, 0 <= k /\ n = 2 ^ k) /\ h_nside h = n /\ lenZ (h_map h) = 12 * (n * n).
(* the parts of a map all have this side and scheme *)
Definition alike (n : Z) (s : scheme) (k : skymap) : Prop :=
  full n (k_map k) /\ h_scheme (k_map k) = s /\ full n (k_wgt k) /\ h_scheme (k_wgt k) = s /\ Forall (fun h => full n h /\ h_scheme h = s) (k_ind k).
(* h shows the same sky as g: the same values in the same arrangement (interpolation set to i) *)
Definition shows (i : bool) (g h : hpm) : Prop := h_nside h = h_nside g /\ h_scheme h = h_scheme g /\ h_map h = h_map g /\ h_interp h = i.
(* the ORDERING of a file, which may have anything after the first four letters *)
Definition ordered (t : table) (s : scheme) : Prop :=
  exists rest, t_ordering t = Some (list_ascii_of_string (match s with RING => "RING" | NEST => "NEST" end) ++ rest)%list.
(* a column is a full map *)
Definition map_size (l : list R) : Prop := exists k, 0 <= k /\ lenZ l = 12 * (2 ^ k * 2 ^ k).
