(* scripts/xtalk3.py: the crosstalk measured from a data set (-o) and the reprocessing of such
   measurements (-r); the subtraction (-i) is CmdModel.xtalk.
   Simplifications: numbers are exact reals; the dictionaries guess and cnt (gain, xsum and cnt), which are
   always changed together, are one; a key is the number whose decimal digits the script uses. *)
From Coq Require Import Reals.
From Verif Require Import Base BaselineModel CleanModel CmdModel.
Open Scope R_scope.

Fixpoint dget {A} (d : list (Z * A)) (k : Z) : option A :=
  match d with [] => None | (c, a) :: r => if Z.eqb c k then Some a else dget r k end.
Fixpoint dput {A} (d : list (Z * A)) (k : Z) (a : A) : list (Z * A) :=
  match d with [] => [(k, a)] | (c, b) :: r => if Z.eqb c k then (c, a) :: r else (c, b) :: dput r k a end.
(* a loop that adds to the entry of each key *)
Fixpoint accum {V A} (f : option A -> V -> res A) (l : list (Z * V)) (d : list (Z * A)) : res (list (Z * A)) :=
  match l with [] => Ok d | (k, v) :: r => bind (f (dget d k) v) (fun a => accum f r (dput d k a)) end.
Fixpoint mapres {A B} (f : A -> res B) (l : list A) : res (list B) :=
  match l with [] => Ok [] | a :: r => bind (f a) (fun b => bind (mapres f r) (fun m => Ok (b :: m))) end.

(* numpy a += b *)
Definition iadd {A B} (f : A -> B -> A) (a : list A) (b : list B) : res (list A) :=
  if Nat.eqb (length a) (length b) then Ok (map (fun p => f (fst p) (snd p)) (combine a b))
  else match b with [x] => Ok (map (fun y => f y x) a) | _ => Err end.

(* ---------- -o: xtalk3.py:73-97 ---------- *)
(* a record: antennas, polarisation, data, flags (true: flagged) *)
Definition vis := (Z * Z * Z * list C * list bool)%type.
(* xtalk3.py:88-93 *)
Definition add_sample (o : option (list C * list R)) (v : list C * list bool) : res (list C * list R) :=
  bind (bcast (fun (f : bool) (d : C) => if f then (0, 0) else d) (snd v) (fst v)) (fun g =>
  let n := map (fun f : bool => if f then 0 else 1) (snd v) in
  match o with
  | None => Ok (g, n)
  | Some (gs, ns) => bind (iadd cadd gs g) (fun gs => bind (iadd Rplus ns n) (fun ns => Ok (gs, ns)))
  end).
Definition keyed (v : vis) : Z * (list C * list bool) := let '(i, j, p, d, f) := v in (ijp2blp i j p, (d, f)).
(* has_key: dictionaries have that method (Python 2). Autocorrelations are not selected (76); the first
   read (77) raises when there is nothing else. *)
Definition measure (has_key : bool) (recs : list vis) : res (list (Z * list C)) :=
  match filter (fun v : vis => let '(i, j, _, _, _) := v in negb (Z.eqb i j)) recs with
  | [] => Err
  | cross => if negb has_key then Err else
    bind (accum add_sample (map keyed cross) []) (fun d =>
    mapres (fun e => bind (bcast (fun g n => cscale (/ Rmax 1 n) g) (fst (snd e)) (snd (snd e))) (fun x => Ok (fst e, x))) d)
  end.

(* ---------- -r: xtalk3.py:38-66 ---------- *)
Definition amp (z : C) : R := sqrt (cnorm2 z).
Definition nonzero (r : R) : bool := if Req_EM_T r 0 then false else true.
(* 54, 56: the mean of the amplitudes that are not zero from channel lo up to, not including, hi. Where there
   is none numpy gives the masked constant and divides by it: outside the model. *)
Definition gain_of (lo hi : nat) (d : list C) : option R :=
  match filter nonzero (firstn (hi - lo) (skipn lo (map amp d))) with
  | [] => None
  | l => Some (fold_right Rplus 0 l / INR (length l))
  end.
Definition entry := (list R * list C * list R)%type.     (* gain[bl], xsum[bl], cnt[bl] *)
Definition add_file (lo hi : nat) (o : option entry) (d : list C) : res entry :=
  match gain_of lo hi d with
  | None => Err
  | Some g =>
    let e := map (cscale (/ g)) d in
    let n := map (fun z => if nonzero (amp z) then 1 else 0) d in
    match o with
    | None => Ok ([g], e, n)
    | Some (gs, x, c) => bind (bcast cadd x e) (fun x => bind (bcast Rplus c n) (fun c => Ok (gs ++ [g], x, c)))
    end
  end.
Definition file (T : Type) := (T * option (list (Z * list C)))%type.     (* its time; None: no such file *)
Definition contents {T} (fs : list (file T)) : list (Z * list C) := flat_map (fun f => match snd f with Some l => l | None => [] end) fs.
(* 60 *)
Definition profile (e : entry) : res (list R * list C) :=
  let '(gs, x, c) := e in bind (bcast (fun z n => cscale (/ (if Req_EM_T n 0 then 1 else n)) z) x c) (fun x => Ok (gs, x)).
(* 61-66: the files written, and whether the loop came to its end *)
Fixpoint outputs {T} (c : nat) (times : list T) (d : list (Z * (list R * list C))) : list (T * list (Z * list C)) * bool :=
  match times with
  | [] => ([], true)
  | t :: r =>
    match mapres (fun e => match nth_error (fst (snd e)) c with Some g => Ok (fst e, map (cscale g) (snd (snd e))) | None => Err end) d with
    | Err => ([], false)
    | Ok x => let (o, b) := outputs (S c) r d in ((t, x) :: o, b)
    end
  end.
Definition reprocess {T} (has_key : bool) (lo hi : nat) (fs : list (file T)) : list (T * list (Z * list C)) * bool :=
  match (if negb has_key && negb (Nat.eqb (length (contents fs)) 0) then Err
         else bind (accum (add_file lo hi) (contents fs) []) (mapres (fun e => bind (profile (snd e)) (fun x => Ok (fst e, x))))) with
  | Err => ([], false)
  | Ok d => outputs 0 (map fst fs) d
  end.
