(* scripts/xrfi_simple.py: flags from the statistics of each baseline, flags shared by all baselines,
   and flags in files. Numbers are exact; a division by zero is as numpy's. Times are the numbers
   Python compares. Records whose number of channels is not the file's are not modelled. *)
From Coq Require Import Reals.
From Verif Require Import Base BaselineModel CleanModel CmdModel GaussModel.
Open Scope R_scope.
Local Notation C := (R * R)%type (only parsing).

(* time, antennas, polarisation, data, flags (true: flagged) *)
Notation vis := (R * Z * Z * Z * list (R * R) * list bool)%type (only parsing).
Definition key := (Z * Z * R)%type.     (* polarisation, baseline, time *)
Definition key_of (v : vis) : key := let '(t, i, j, p, _, _) := v in (p, ij2bl i j, t).
Definition key_eqb (a b : key) : bool :=
  (Z.eqb (fst (fst a)) (fst (fst b)) && Z.eqb (snd (fst a)) (snd (fst b)) && if Req_EM_T (snd a) (snd b) then true else false)%bool.
Definition ent := (key * (list C * list bool))%type.
Fixpoint put {A} (l : list (key * A)) (k : key) (a : A) : list (key * A) :=
  match l with [] => [(k, a)] | (c, b) :: r => if key_eqb c k then (c, a) :: r else (c, b) :: put r k a end.
Fixpoint get {A} (l : list (key * A)) (k : key) : option A :=
  match l with [] => None | (c, b) :: r => if key_eqb c k then Some b else get r k end.

(* xrfi_simple.py:69 f[chans] = 1 *)
Definition manual (chans : list Z) (f : list bool) : res (list bool) :=
  let n := Z.of_nat (length f) in
  if forallb (fun c => ((- n <=? c) && (c <? n))%Z) chans
  then Ok (map (fun q => (snd q || existsb (fun c => ((c =? Z.of_nat (fst q)) || (c + n =? Z.of_nat (fst q)))%Z) chans)%bool) (combine (seq 0 (length f)) f))
  else Err.
(* 57-71 *)
Fixpoint gather (chans : list Z) (n : nat) (vs : list vis) (m : list ent) : res (list ent) :=
  match vs with
  | [] => Ok m
  | v :: r => let '(_, _, _, _, d, f) := v in
    if (Nat.eqb (length d) n && Nat.eqb (length f) n)%bool
    then bind (manual chans f) (fun f => gather chans n r (put m (key_of v) (d, f)))
    else Err
  end.

(* 74-80: one polarisation and baseline, by time *)
Fixpoint insert_t (e : ent) (l : list ent) : list ent :=
  match l with [] => [e] | a :: r => if Rle_dec (snd (fst e)) (snd (fst a)) then e :: l else a :: insert_t e r end.
Definition sort_t (l : list ent) : list ent := fold_right insert_t [] l.
Definition no_ent : ent := ((0%Z, 0%Z, 0), ([], [])).
Definition cell (es : list ent) (k c : nat) : C := nth c (fst (snd (nth k es no_ent))) (0, 0).
(* |d - .5 (d before + d after)|**2 *)
Definition bend2 (a b c : C) : R := cnorm2 (csub b (cscale (1 / 2) (cadd a c))).
(* ddf2/sig**2 > lim**2, sig the square root of the median *)
Definition exceeds (x med lim : R) : bool :=
  let s2 := sqrt med * sqrt med in
  if Req_EM_T s2 0 then (if Req_EM_T x 0 then false else true)
  else if Rlt_dec (lim * lim) (x / s2) then true else false.
(* 81-87 *)
Definition by_freq (lim : R) (n : nat) (es : list ent) (k c : nat) : bool :=
  let x c := bend2 (cell es k (c - 1)) (cell es k c) (cell es k (c + 1)) in
  (Nat.eqb c 0 || Nat.eqb c (n - 1) || exceeds (x c) (median (map x (seq 1 (n - 2)))) lim)%bool.
(* 88-94 *)
Definition by_time (lim : R) (es : list ent) (k c : nat) : bool :=
  let x k := bend2 (cell es (k - 1) c) (cell es k c) (cell es (k + 1) c) in
  (Nat.eqb k 0 || Nat.eqb k (length es - 1) || exceeds (x k) (median (map x (seq 1 (length es - 2)))) lim)%bool.
(* 95-99 *)
Definition by_size (lim : R) (es : list ent) (k c : nat) : bool :=
  let ad := flat_map (fun e : ent => map (fun z => sqrt (cnorm2 z)) (fst (snd e))) es in
  let med := median ad in
  let sig := sqrt (median (map (fun a => Rabs (a - med) * Rabs (a - med)) ad)) in
  if Rlt_dec (med + lim * sig) (sqrt (cnorm2 (cell es k c))) then true else false.
Definition stat (df dt : option R) (nsig : R) (n : nat) (es : list ent) (k c : nat) : bool :=
  match df, dt with
  | None, None => by_size nsig es k c
  | _, _ => (match df with Some l => by_freq l n es k c | None => false end || match dt with Some l => by_time l es k c | None => false end)%bool
  end.
(* 100 *)
Definition masked (df dt : option R) (nsig : R) (n : nat) (es : list ent) : list (key * list bool) :=
  map (fun k => let e := nth k es no_ent in (fst e, map (fun c => (nth c (snd (snd e)) false || stat df dt nsig n es k c)%bool) (seq 0 n))) (seq 0 (length es)).
Definition pair_dec (a b : Z * Z) : {a = b} + {a <> b}.
Proof. decide equality; apply Z.eq_dec. Defined.
Definition masks (df dt : option R) (nsig : R) (n : nat) (es : list ent) : list (key * list bool) :=
  flat_map (fun g => masked df dt nsig n (sort_t (filter (fun e : ent => if pair_dec (fst (fst e)) g then true else false) es)))
    (nodup pair_dec (map (fun e : ent => fst (fst e)) es)).
(* 101-110: the same flags for all *)
Definition count (m : list (key * list bool)) (t : R) (c : nat) : nat :=
  length (filter (fun e : key * list bool => if Req_EM_T (snd (fst e)) t then nth c (snd e) false else false) m).
Definition shared (thresh : Z) (n : nat) (m : list (key * list bool)) : list (R * list bool) :=
  map (fun t => (t, map (fun c => Z.leb thresh (Z.of_nat (count m t c))) (seq 0 n))) (nodup Req_EM_T (map (fun e : key * list bool => snd (fst e)) m)).
Fixpoint at_time (l : list (R * list bool)) (t : R) : option (list bool) :=
  match l with [] => None | (u, m) :: r => if Req_EM_T u t then Some m else at_time r t end.

(* 125-138 *)
Fixpoint apply (mask : vis -> option (list bool)) (vs : list vis) : list vis * bool :=
  match vs with
  | [] => ([], true)
  | v :: r => let '(t, i, j, p, d, f) := v in
    match mask v with
    | None => ([], false)
    | Some m => match bcast (fun (b : bool) (z : C) => if b then (0, 0) else z) m d with
                | Err => ([], false)
                | Ok d => let (o, b) := apply mask r in ((t, i, j, p, d, m) :: o, b)
                end
    end
  end.
(* the entries with all their flags; None: an exception. keys() has sort (76), and values() can be
   subscripted (113, 130), in Python 2 only. Without a channel there is no m[:,0] (85). *)
Definition found (py2 : bool) (chans : list Z) (df dt : option R) (nsig : R) (n : nat) (vs : list vis) : option (list (key * list bool)) :=
  match gather chans n vs [] with
  | Err => None
  | Ok [] => Some []
  | Ok es => if (negb py2 || match df with Some _ => Nat.eqb n 0 | None => false end)%bool then None else Some (masks df dt nsig n es)
  end.
(* a run on one file: sel, the selection of antennas (56), is not applied when the flags are (134) *)
Definition run (py2 : bool) (sel : vis -> bool) (chans : list Z) (df dt : option R) (nsig : R) (n : nat) (vs : list vis) : list vis * bool :=
  match found py2 chans df dt nsig n (filter sel vs) with
  | None => ([], false)
  | Some m => apply (fun v => get m (key_of v)) vs
  end.
Definition default_flags (l : list (R * list bool)) (v : vis) : list bool :=
  let '(t, _, _, _, _, f) := v in match at_time l t with Some m => m | None => map (fun _ => true) f end.
(* --combine --to_npz *)
Definition to_npz (py2 : bool) (sel : vis -> bool) (chans : list Z) (df dt : option R) (nsig : R) (thresh : Z) (n : nat) (vs : list vis) : res (list (R * list bool)) :=
  match found py2 chans df dt nsig n (filter sel vs) with
  | None | Some [] => Err
  | Some m => Ok (shared thresh n m)
  end.
(* --combine --from_npz *)
Definition from_npz (py2 : bool) (l : list (R * list bool)) (vs : list vis) : list vis * bool :=
  apply (fun v => if py2 then Some (default_flags l v) else None) vs.
(* --combine *)
Definition run_combined (py2 : bool) (sel : vis -> bool) (chans : list Z) (df dt : option R) (nsig : R) (thresh : Z) (n : nat) (vs : list vis) : list vis * bool :=
  match found py2 chans df dt nsig n (filter sel vs) with
  | None => ([], false)
  | Some [] => apply (fun _ => None) vs
  | Some m => apply (fun v => if py2 then Some (default_flags (shared thresh n m) v) else None) vs
  end.
