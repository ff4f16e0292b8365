(* SPEC: what a data set rewritten record by record must hold. A data set is a list of records with
   the values of its variables (UvSpec.dataset). *)
From Coq Require Import String.
From Verif Require Import Base UvModel UvSpec PipeSpec.
Open Scope Z_scope.
Local Notation length := List.length.

Definition row := (urec * env)%type.

(* channel c of a record: its value (two floats, 8 bytes) and whether it is good *)
Definition chan (x : urec) (c : Z) : list Z := firstn 8 (skipn (8 * Z.to_nat c) (r_corr x)).
Definition good (x : urec) (c : Z) : bool := nth (Z.to_nat c) (r_fl x) false.
Definition zero : list Z := repeat 0 8.

(* the polarisation code at a record *)
Definition pol_at (d : row) (k : Z) : Prop := look (snd d) "pol" = Some (TInt, be4 k) /\ -2147483648 <= k < 2147483648.

(* A data set of float visibilities that pipe copies whole (C18_clone): nsize channels in each record,
   every variable set before the first record, no value over 32 kB, integers single. *)
Definition plain (nsize : Z) (ops : list uop) : Prop :=
  let ds := dataset TReal [] 0 ops in
  ds <> [] /\ few_variables TReal ops /\
  (forall d, In d ds -> r_n (fst d) = nsize /\ look (snd d) "nchan" = Some (TInt, be4 nsize)) /\
  (forall n d, In n (names TReal [] 0 ops) -> nth_error ds 0 = Some d -> look (snd d) n <> None) /\
  (forall n d t b, In d ds -> look (snd d) n = Some (t, b) -> n <> "corr"%string ->
     zlen b <= 32768 /\ (t = TInt \/ t = TInt2 -> zlen b = ext t)).

Section Host.
Variable feq8 feq4 : list Z -> list Z -> bool.

(* same u, v, w, time, baseline and number of channels *)
Definition same_place (a b : urec) : Prop :=
  same8 feq8 (r_u a) (r_u b) /\ same8 feq8 (r_v a) (r_v b) /\ same8 feq8 (r_w a) (r_w b) /\
  same8 feq8 (r_t a) (r_t b) /\ same4 feq4 (r_bl a) (r_bl b) /\ r_n a = r_n b.

(* y is read (as a) where d was, with all of d's variables *)
Definition in_place_of (d : row) (y : urec) (get : string -> option (list Z)) (a : rdres) : Prop :=
  a = RdRec y /\ same_place (fst d) y /\ zlen (r_fl y) = r_n y /\ zlen (r_corr y) = 8 * r_n y /\
  (forall n t b, user_name n \/ n = "nchan"%string -> look (snd d) n = Some (t, b) -> get n = Some b) /\
  (forall n, user_name n -> look (snd d) n = None -> get n = None) /\
  (forall n, preamble_name n -> get n = Some (pre_val n y)).

(* The output has exactly one record for each of the rows, in order: W says what it must hold. *)
Definition rewritten {A} (rowof : A -> row) (W : A -> urec -> Prop) (rows : list A) (nsize : Z) (w : writer) : Prop :=
  exists out last, reads nsize (S (length rows)) (uv_open w) = out ++ [(last, RdEof)] /\
    Forall2 (fun a o => exists y, in_place_of (rowof a) y (uvgetvr (fst o)) (snd o) /\ W a y) rows out.
End Host.

Section Arith.
Variable op : list Z -> list Z -> list Z.     (* adding or subtracting two complex numbers *)
(* y is x1 and x2 combined: good where both are, and zero elsewhere *)
Definition combined (x1 x2 y : urec) : Prop :=
  forall c, 0 <= c < r_n y ->
    good y c = good x1 c && good x2 c /\
    chan y c = if good x1 c && good x2 c then op (chan x1 c) (chan x2 c) else zero.
(* y is x with m's value of each channel taken into account; flags as they were *)
Definition adjusted (x : urec) (m : Z -> list Z) (y : urec) : Prop :=
  forall c, 0 <= c < r_n y -> good y c = good x c /\ chan y c = op (chan x c) (m c).
End Arith.
(* y holds what x holds *)
Definition unchanged (x y : urec) : Prop :=
  forall c, 0 <= c < r_n y -> good y c = good x c /\ chan y c = chan x c.

(* the baseline of a record is that of antennas i and j (C02 says how the code reads it) *)
Definition of_pair (fl2int : list Z -> Z) (mkbl : Z -> Z -> Z) (x : urec) (i j : Z) : Prop :=
  0 <= i <= 2046 /\ 0 <= j <= 2046 /\ fl2int (r_bl x) = mkbl i j.

(* the names of the polarisations *)
Definition pol_names : list (string * Z) :=
  [("I", 1); ("Q", 2); ("U", 3); ("V", 4); ("rr", -1); ("ll", -2); ("rl", -3); ("lr", -4);
   ("xx", -5); ("yy", -6); ("xy", -7); ("yx", -8)]%string%Z.

(* a crosstalk model: spectra for antenna pairs (in either order) and polarisations *)
Definition xentry := (Z * Z * Z * list (list Z))%type.
Definition for_pair (e : xentry) (i j k : Z) : Prop :=
  let '(a, b, p, _) := e in p = k /\ ((a = i /\ b = j) \/ (a = j /\ b = i)).

Definition xrange (e : xentry) : Prop := let '(a, b, p, _) := e in 0 <= a <= 2046 /\ 0 <= b <= 2046 /\ -9 <= p <= 6.
(* complex numbers and spectra of nsize channels, as bytes *)
Definition op8 (op : list Z -> list Z -> list Z) : Prop := forall a b, length a = 8%nat -> length b = 8%nat -> length (op a b) = 8%nat.
Definition spectrum (nsize : Z) (s : list (list Z)) : Prop := length s = Z.to_nat nsize /\ Forall (fun c => length c = 8%nat) s.

(* numpy: -1 is the last of n channels *)
Definition lists_chan (chans : list Z) (n c : Z) : Prop := In c chans \/ In (c - n) chans.

(* polarisation k, antennas i and j *)
Definition pairing (fl2int : list Z -> Z) (mkbl : Z -> Z -> Z) (d : row) (k i j : Z) : Prop :=
  pol_at d k /\ of_pair fl2int mkbl (fst d) i j.
(* two records of one pair of antennas, polarisation and time *)
Definition same_key (feq8 : list Z -> list Z -> bool) (fl2int : list Z -> Z) (mkbl : Z -> Z -> Z) (d d' : row) : Prop :=
  exists k i j i' j', pairing fl2int mkbl d k i j /\ pairing fl2int mkbl d' k i' j' /\
    ((i = i' /\ j = j') \/ (i = j' /\ j = i')) /\ feq8 (r_t (fst d)) (r_t (fst d')) = true.

(* y is x with some channels flagged and set to zero *)
Definition masked (flagged : Z -> Prop) (x y : urec) : Prop :=
  forall c, 0 <= c < r_n y ->
    (good y c = false <-> flagged c) /\ (flagged c -> chan y c = zero) /\ (~ flagged c -> chan y c = chan x c).
