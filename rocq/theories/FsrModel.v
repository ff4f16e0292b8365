(* scripts/filter_src.py: filtering of data by delay and delay rate. Numbers are exact; what numpy.fft computes
   is taken to be the discrete Fourier transform. Polarisations are their numbers. What the array of the
   calibration file gives is a parameter. *)
From Coq Require Import Reals.
From Verif Require Import Base BaselineModel CleanModel CmdModel GridModel ImgModel GeoModel SkyModel.
Open Scope R_scope.
Local Notation length := List.length.
Local Notation C := (R * R)%type (only parsing).
(* time, antennas, polarisation, data, flags (true: flagged) *)
Notation vis := (R * Z * Z * Z * list (R * R) * list bool)%type (only parsing).
Notation key := (Z * Z)%type (only parsing).     (* polarisation, baseline *)

(* ---------- transforms of one dimension ---------- *)
Definition dft (s : R) (l : list C) : list C :=
  map (fun k => fold_right (fun x a => cadd (cmul (nth x l (0, 0)) (cis (s * INR (x * k) / INR (length l)))) a) (0, 0) (seq 0 (length l)))
    (seq 0 (length l)).
Definition fft (l : list C) : list C := dft (-1) l.
Definition ifft (l : list C) : list C := map (cscale (/ INR (length l))) (dft 1 l).
Definition is_zero (z : C) : bool := if Req_EM_T (fst z) 0 then if Req_EM_T (snd z) 0 then true else false else false.
Definition cdiv (a b : C) : C := cmul a (cinverse b (cnorm2 b)).
(* a.deconv.clean(d, ker, tol=tol): the model and info['res'] *)
Definition turns : Z := 10000.
Definition deconv (tol : R) (d ker : list C) : option (list C * list C) :=
  let n := length d in
  match clean_py (0, 0) csub (fun m => m) (fun ar m r => clean_1d_c n (fun i => nth i ker (0, 0)) ar (1 / 10) tol turns true false (S (Z.to_nat turns)) m r)
          turns (fun i => nth i d (0, 0)) None None with
  | Some (m, r, _, _, _) => Some (map m (seq 0 n), map r (seq 0 n))
  | None => None
  end.
(* filter_src.py:94-102, 125-131: d + info['res'] / gain for weights w. A gain of 0 gives nan, which is not modelled. *)
Definition restored (tol : R) (w : list R) (d : list C) : res (list C) :=
  let gain := sqrt (fold_right (fun x s => x * x + s) 0 w / INR (length w)) in
  if Req_EM_T gain 0 then Err else
  match deconv tol d (ifft (map (fun x => (x, 0)) w)) with
  | Some (m, r) => Ok (map (fun p => cadd (fst p) (cscale (/ gain) (snd p))) (combine m r))
  | None => Err
  end.
(* a[lo:hi] = 0 *)
Definition py_index (n : nat) (i : Z) : nat := if (i <? 0)%Z then Z.to_nat (i + Z.of_nat n) else Nat.min (Z.to_nat i) n.
Definition nulled (n : nat) (lo hi : Z) (k : nat) : bool := (Nat.leb (py_index n lo) k && Nat.ltb k (py_index n hi))%bool.
Definition null {A} (zero : A) (lo hi : Z) (l : list A) : list A :=
  map (fun p => if nulled (length l) lo hi (fst p) then zero else snd p) (combine (seq 0 (length l)) l).
Definition column (d : list (list C)) (c : nat) : list C := map (fun row => nth c row (0, 0)) d.
(* the matrix with these columns *)
Definition across (n : nat) (cols : list (list C)) : list (list C) := map (fun t => column cols t) (seq 0 n).
Fixpoint mapres {A B} (f : A -> res B) (l : list A) : res (list B) :=
  match l with [] => Ok [] | a :: r => bind (f a) (fun b => bind (mapres f r) (fun m => Ok (b :: m))) end.

(* filter_src.py:13-28 gen_skypass_delay, one baseline: its length and the array's delay for it; rnd: int(np.round) *)
Definition skypass (rnd : R -> Z) (sdf : R) (nchan : nat) (bl dly : R) : Z * Z :=
  let bin := 1 / (sdf * INR nchan) in let far := 3 / 2 * bl in (rnd ((dly + far) / bin + 1), rnd ((dly - far) / bin)).

Section Filter.
(* aa.gen_phs for the source at a time, for a polarisation and two antennas, None: PointingError; no source *)
Variable src : option (R -> Z -> Z -> Z -> option (list C)).
Variable pols : list Z.
Variables (drw dw : Z) (passband extract : bool) (tol : R).
Variable filters : key -> option (Z * Z).     (* 55-57, without a source *)
Variable padlen : nat -> nat.                 (* math.ceil(n * .1) *)

Definition key_eqb (a b : key) : bool := (Z.eqb (fst a) (fst b) && Z.eqb (snd a) (snd b))%bool.
Fixpoint get {A} (d : list (key * A)) (k : key) : option A :=
  match d with [] => None | (c, a) :: r => if key_eqb c k then Some a else get r k end.
Fixpoint append {A} (d : list (key * list A)) (k : key) (a : A) : list (key * list A) :=
  match d with [] => [(k, [a])] | (c, l) :: r => if key_eqb c k then (c, l ++ [a]) :: r else (c, l) :: append r k a end.
Fixpoint count_up (d : list (key * nat)) (k : key) : list (key * nat) :=
  match d with [] => [(k, 1%nat)] | (c, l) :: r => if key_eqb c k then (c, S l) :: r else (c, l) :: count_up r k end.

(* 92: None: PointingError *)
Definition phased (v : vis) : res (option (list C)) :=
  let '(t, i, j, p, d, f) := v in
  match src with
  | None => Ok (Some d)
  | Some g => match g t p i j with None => Ok None | Some ph => bind (bcast cmul d ph) (fun d => Ok (Some d)) end
  end.
(* 90, 95-102 *)
Definition delays (d : list C) (f : list bool) : res (list C) :=
  bind (bcast (fun (b : bool) (z : C) => if b then (0, 0) else z) f d) (fun d =>
  if Nat.eqb (length d) 0 then Err else
  let d := ifft d in
  if forallb is_zero d then Ok d else restored tol (map (fun b : bool => if b then 0 else 1) f) d).
(* 76-105. aa.passband is complex (amp.py:241-244) and the weights are not: flags *= raises TypeError (94). *)
Fixpoint gather (vs : list vis) (dat : list (key * list (list C))) (up : bool) : res (list (key * list (list C)) * bool) :=
  match vs with
  | [] => Ok (dat, up)
  | v :: r => let '(t, i, j, p, d, f) := v in
    if (negb (existsb (Z.eqb p) pols) || Z.eqb i j)%bool then gather r dat up else
    let k := (p, ij2bl i j) in
    match phased v with
    | Err => Err
    | Ok None => gather r (append dat k (map (fun _ => (0, 0)) d)) up
    | Ok (Some d) => if passband then Err else bind (delays d f) (fun x => gather r (append dat k x) true)
    end
  end.

(* 119-122 *)
Definition padded {A} (l : list A) : list A :=
  let p := padlen (length l) in rev (firstn p l) ++ l ++ rev (skipn (length l - p) l).
(* 123-135 *)
Definition rates (d : list (list C)) : res (list (list C)) :=
  if Z.eqb drw (-1) then Ok d else
  let w := map (fun row => if is_zero (nth 0 row (0, 0)) then 0 else 1) d in
  bind (mapres (fun c => restored tol w (ifft (column d c))) (seq 0 (length (nth 0 d [])))) (fun cols =>
  let m := across (length d) cols in
  let x2 := if Z.eqb (- drw + 1) 0 then Z.of_nat (length d) else (- drw + 1)%Z in
  Ok (null (map (fun _ => (0, 0)) (nth 0 d [])) drw x2 m)).
(* 136-139; with a source there is no filters *)
Definition limits (n : nat) (k : key) : res (Z * Z) :=
  if Z.eqb dw (-1) then match src with Some _ => Err | None => match filters k with Some l => Ok l | None => Err end end
  else Ok (dw, if Z.eqb (- dw) 0 then Z.of_nat n else (- dw)%Z).
(* 112-145 *)
Definition block (up : bool) (e : key * list (list C)) : res (key * list (list C)) :=
  let rows := snd e in let n := length (nth 0 rows []) in
  if negb (forallb (fun r => Nat.eqb (length r) n) rows) then Err else
  if negb up then Ok e else
  bind (rates (padded rows)) (fun d =>
  bind (limits n (fst e)) (fun lim =>
  let d := map (null (0, 0) (fst lim) (snd lim)) d in
  let d := if Z.eqb drw (-1) then d else across (length d) (map (fun c => fft (column d c)) (seq 0 n)) in
  let d := map fft d in
  let p := padlen (length rows) in
  Ok (fst e, firstn (length d - p - p) (skipn p d)))).

(* 154-168: a masked array keeps its data under the mask when another is subtracted *)
Definition answer (v : vis) (x : list C) : res vis :=
  let '(t, i, j, p, d, f) := v in
  bind (match src with
        | None => Ok x
        | Some g => match g t p i j with None => Ok (map (fun _ => (0, 0)) x) | Some ph => bcast cdiv x ph end
        end) (fun x =>
  if passband then Err else
  if negb (Nat.eqb (length x) (length d) && Nat.eqb (length f) (length d))%bool then Err else
  if extract then Ok (t, i, j, p, x, f)
  else bind (bcast csub d x) (fun y => bind (bcast (fun (b : bool) (q : C * C) => if b then fst q else snd q) f (combine d y)) (fun z => Ok (t, i, j, p, z, f)))).
Fixpoint emit (dat : list (key * list (list C))) (cnt : list (key * nat)) (vs : list vis) : list vis * bool :=
  match vs with
  | [] => ([], true)
  | v :: r => let '(t, i, j, p, d, f) := v in
    if Z.eqb i j then let (o, b) := emit dat cnt r in (v :: o, b) else
    let k := (p, ij2bl i j) in
    match get dat k with
    | None => ([], false)                                (* KeyError *)
    | Some rows =>
      match nth_error rows (match get cnt k with Some c => c | None => 0%nat end) with
      | None => ([], false)
      | Some x => match answer v x with
                  | Err => ([], false)
                  | Ok y => let (o, b) := emit dat (count_up cnt k) r in (y :: o, b)
                  end
      end
    end
  end.
(* a run on one file: the records written, and whether it came to the end *)
Definition run (vs : list vis) : list vis * bool :=
  match bind (gather vs [] false) (fun g => mapres (block (snd g)) (fst g)) with
  | Err => ([], false)
  | Ok dat => emit dat [] vs
  end.
End Filter.
